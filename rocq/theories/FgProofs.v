(** Loading the entries of a foreground's fragments gives back the fragments (model: FgModel.v). *)
From Verif Require Import Num Base PyStr ProcModel FragModel EditModel ObserveProps FgModel FgTrav FgDict.
From Coq Require Import Permutation Lia.
Open Scope Qc_scope.
Open Scope string_scope.
Open Scope list_scope.
Local Arguments eqb : simpl never.

Lemma hs_same h i f : hset h i f i = Some f. Proof. unfold hset. rewrite Nat.eqb_refl. reflexivity. Qed.
Lemma hs_other h i f j : j <> i -> hset h i f j = h j. Proof. intros N. unfold hset. destruct (Nat.eqb_spec j i); [contradiction|reflexivity]. Qed.

(** A fragment that a file can hold: links between parents and children agree; balance flows are the children that define what their parent conserves, and have
    the stored value 1; ordinary scenario names; an unterminated flow has the default direction; terminations to fragments of the foreground; tags have values and do not carry the name of a field. *)
Record storable (refq : nat -> nat) (st : fgs) (u : nat) (f : frag) (m : meta) : Prop := FO {
  fo_ndc : NoDup (f_children f);
  fo_kids : forall c, In c (f_children f) <-> exists g, g_heap st c = Some g /\ f_parent g = Some u;
  fo_par : forall p, f_parent f = Some p -> g_heap st p <> None;
  fo_ref : f_parent f = None -> f_isbal f = false;
  fo_cons : forall q, f_cons f = Some q <-> exists c g, In c (f_children f) /\ g_heap st c = Some g /\ f_isbal g = true /\ refq (f_flow g) = q;
  fo_one : forall c d gc gd, In c (f_children f) -> In d (f_children f) -> g_heap st c = Some gc -> g_heap st d = Some gd -> f_isbal gc = true -> f_isbal gd = true -> c = d;
  fo_evs : ev_keys_ok (f_evs f); fo_k0 : dget K0 (f_evs f) <> None; fo_k1 : dget K1 (f_evs f) <> None;
  fo_bal : f_isbal f = true -> dget K0 (f_evs f) = Some (Some 1);
  fo_terms : term_keys_ok (f_terms f); fo_t0 : dget None (f_terms f) <> None;
  fo_null : forall k t, In (k, t) (f_terms f) -> is_null t = true -> t = null_term (f_flow f) (f_dir f);
  fo_frag : forall k t j, In (k, t) (f_terms f) -> t_node t = NFrag j -> g_heap st j <> None;
  fo_tags : NoDup (dkeys (m_tags m)); fo_new : forall k, In k (dkeys new_tags) -> din k (m_tags m) = true;
  fo_vals : forall k, dget k (m_tags m) <> Some None; fo_fields : forall k, In k fields -> din k (m_tags m) = false;
  fo_name : m_name m <> Some "None" }.
Record same_meta (m m' : meta) : Prop := SM { sm_name : m_name m' = m_name m; sm_priv : m_priv m' = m_priv m; sm_tags : forall k, dget k (m_tags m') = dget k (m_tags m) }.

Section Load.
Context (refq : nat -> nat) (sh : nat -> nat) (st : fgs).
Context (OK : forall u f, g_heap st u = Some f -> exists m, g_meta st u = Some m /\ storable refq st u f m).
Context (NAMES : forall u v fu fv mu mv s, g_heap st u = Some fu -> g_heap st v = Some fv -> g_meta st u = Some mu -> g_meta st v = Some mv -> m_name mu = Some s -> m_name mv = Some s -> u = v).

Context (SHADOW : forall u v fv, g_heap st v = Some fv -> sh u <> v).

(** * The entry of a fragment *)
Definition entry (u : nat) (f : frag) (m : meta) : jfrag :=
  JF u (ext_of st u) (parent_ref st f) (Some (f_flow f)) (Some (f_dir f)) (m_priv m) (f_bg f) (f_isbal f) (sort_keys (ser_evs (f_evs f))) (Some (sort_keys (ser_terms st f))) (Some (sort_keys (m_tags m))).
Lemma serialize_ok u f m : g_heap st u = Some f -> g_meta st u = Some m -> storable refq st u f m -> serialize st u = FOk (entry u f m).
Proof.
  intros HU HM O. unfold serialize. rewrite HU, HM.
  assert (E : existsb (fun e => match snd e with None => negb (mem (fst e) fields) | Some _ => false end) (m_tags m) = false).
  { destruct (existsb _ (m_tags m)) eqn:X; [|reflexivity]. apply existsb_exists in X as ([k v] & J & X). cbn in X. destruct v; [discriminate|]. apply (In_dget _ _ _ (fo_tags _ _ _ _ _ O)) in J. destruct (fo_vals _ _ _ _ _ O k J). }
  rewrite E. unfold keep. assert (F := fo_fields _ _ _ _ _ O). rewrite !F by (cbn; tauto). reflexivity.
Qed.

(** * The first pass *)
Definition kid (u c : nat) : bool := match g_heap st c with Some g => match f_parent g with Some p => Nat.eqb p u | None => false end | None => false end.
Definition balkid (u c : nat) : bool := kid u c && match g_heap st c with Some g => f_isbal g | None => false end.
Record part (L : list nat) (u : nat) (f f1 : frag) : Prop := PT {
  pt_parent : f_parent f1 = f_parent f; pt_children : f_children f1 = filter (kid u) L; pt_flow : f_flow f1 = f_flow f; pt_dir : f_dir f1 = f_dir f; pt_bg : f_bg f1 = f_bg f; pt_bal : f_isbal f1 = f_isbal f;
  pt_cons : f_cons f1 = if existsb (balkid u) L then f_cons f else None; pt_evs : forall k, dget k (f_evs f1) = dget k (f_evs f); pt_terms : f_terms f1 = [(None, null_term (f_flow f) (f_dir f))] }.
Record pass1 (L : list nat) (s : fgs) : Prop := P1 {
  p1_out : forall u, ~ In u L -> g_heap s u = None /\ g_meta s u = None;
  p1_in : forall u, In u L -> exists f m f1 m1, g_heap st u = Some f /\ g_meta st u = Some m /\ g_heap s u = Some f1 /\ part L u f f1 /\ g_meta s u = Some m1 /\ same_meta m m1;
  p1_up : forall u f p, In u L -> g_heap st u = Some f -> f_parent f = Some p -> In p L;
  p1_map : forall n u, dget n (g_map s) = Some u <-> In u L /\ exists m, g_meta st u = Some m /\ m_name m = Some n }.

Lemma resolve_ok L s u : pass1 L s -> In u L -> resolve s (ext_of st u) = Some u.
Proof.
  intros P J. destruct (p1_in _ _ P u J) as (f & m & f1 & m1 & HU & HM & H1 & _). unfold ext_of. rewrite HM. destruct (m_name m) as [n|] eqn:MN; cbn; [|rewrite H1; reflexivity].
  apply (p1_map _ _ P). split; [exact J|]. exists m. auto.
Qed.
Lemma parent_ok L s u f : pass1 L s -> (forall p, f_parent f = Some p -> In p L) -> g_heap st u = Some f -> resolve s (parent_ref st f) = f_parent f.
Proof.
  intros P PF HU. unfold parent_ref. destruct (f_parent f) as [p|] eqn:FP; [apply (resolve_ok L); [exact P|apply PF; reflexivity]|]. cbn. destruct (dget "None" (g_map s)) as [v|] eqn:E; [|reflexivity].
  apply (p1_map _ _ P) in E as (J & m & HM & MN). destruct (p1_in _ _ P v J) as (fv & m' & _ & _ & HV & HM' & _). destruct (OK v fv HV) as (m2 & HM2 & O). assert (m2 = m) by congruence. subst. destruct (fo_name _ _ _ _ _ O MN).
Qed.

Lemma cached_new h u g v : h u = Some g -> f_evs g = new_evs -> (observable h g (ScKey K0) = FOk true \/ v = Some (Q2Qc 1)) ->
  exists h' e, set_cached_o h u v = (h', FOk tt) /\ h' u = Some (with_evs g e) /\ (forall j, j <> u -> h' j = h j) /\ dget K0 e = Some v /\ (forall k, k <> K0 -> k <> K1 -> dget k e = None).
Proof.
  intros HU GE OB. assert (CE : cached_ev g = Q2Qc 1) by (unfold cached_ev; rewrite GE; reflexivity).
  assert (W : g = with_evs g new_evs) by (rewrite <- GE; destruct g; reflexivity).
  assert (NK : forall k, k <> K0 -> k <> K1 -> dget k new_evs = None) by (intros k A B; cbn; destruct (eqb_spec k K0); [contradiction|]; destruct (eqb_spec k K1); [contradiction|]; reflexivity).
  assert (SET : observable h g (ScKey K0) = FOk true -> set_exchange_value h u (ScKey K0) v = (hset h u (with_evs g (dset K0 v (f_evs g))), FOk tt)) by (intros X; unfold set_exchange_value; rewrite HU, X; reflexivity).
  assert (FIN : exists h' e, (hset h u (with_evs g (dset K0 v (f_evs g))), FOk tt) = (h', FOk tt) /\ h' u = Some (with_evs g e) /\ (forall j, j <> u -> h' j = h j) /\ dget K0 e = Some v /\ (forall k, k <> K0 -> k <> K1 -> dget k e = None)).
  { eexists _, (dset K0 v (f_evs g)). split; [reflexivity|]. split; [apply hs_same|]. split; [intros j N; apply hs_other, N|]. split; [apply dget_dset_same|]. intros k A B. rewrite dget_dset_other by exact A. rewrite GE. apply NK; assumption. }
  destruct v as [q|]; cbn [set_cached_o].
  - unfold set_cached. rewrite HU, CE, eqb_refl. destruct (eqb_spec q (Q2Qc 1)) as [->|NQ].
    + exists h, new_evs. split; [reflexivity|]. split; [rewrite HU, W at 1; reflexivity|]. split; [reflexivity|]. split; [reflexivity|exact NK].
    + destruct OB as [OB|[= ->]]; [|contradiction]. rewrite (SET OB). exact FIN.
  - destruct OB as [OB|]; [|discriminate]. rewrite (SET OB). exact FIN.
Qed.

Lemma kid_spec u c f m : g_heap st u = Some f -> storable refq st u f m -> kid u c = true <-> In c (f_children f).
Proof.
  intros HU O. rewrite (fo_kids _ _ _ _ _ O). unfold kid. destruct (g_heap st c) as [g|]; [|split; [discriminate|intros (g & X & _); discriminate]]. destruct (f_parent g) as [p|] eqn:GP.
  - destruct (Nat.eqb_spec p u) as [->|N]; split; intros X; eauto; try discriminate. destruct X as (g' & [= <-] & X). congruence.
  - split; [discriminate|]. intros (g' & [= <-] & X). congruence.
Qed.
Lemma existsb_snoc {A} (P : A -> bool) l x : existsb P (l ++ [x]) = existsb P l || P x.
Proof. rewrite existsb_app. cbn. rewrite orb_false_r. reflexivity. Qed.
Lemma filter_snoc {A} (P : A -> bool) l x : filter P (l ++ [x]) = filter P l ++ if P x then [x] else [].
Proof. rewrite filter_app. reflexivity. Qed.
Lemma tags_ok u f m : storable refq st u f m -> forall k, dget k (fold_left (fun acc e => dset (fst e) (snd e) acc) (sort_keys (m_tags m)) new_tags) = dget k (m_tags m).
Proof.
  intros O k. assert (N := fo_tags _ _ _ _ _ O). assert (ND : NoDup (map (fun e : string * option string => fst e) (sort_keys (m_tags m)))) by (apply sort_nodup, N). destruct (dget k (m_tags m)) as [v|] eqn:D.
  - apply (put_in (fun k : string => k) (fun v : option string => v) _ ND new_tags k v). apply (Permutation_in _ (Permutation_sym (sort_perm _))). apply dget_In, D.
  - etransitivity; [apply (put_other (fun k : string => k) (fun v : option string => v))|].
    + intros [k' v'] J E. cbn in E. subst k'. apply (Permutation_in _ (sort_perm _)) in J. apply (In_dget _ _ _ N) in J. congruence.
    + apply dget_None. intros J. assert (X := fo_new _ _ _ _ _ O k J). unfold din in X. rewrite D in X. discriminate.
Qed.

Lemma load_step L s u f m : pass1 L s -> ~ In u L -> g_heap st u = Some f -> g_meta st u = Some m -> storable refq st u f m -> (forall p, f_parent f = Some p -> In p L) ->
  exists s', load_one refq sh s (entry u f m) = (s', FOk tt) /\ pass1 (L ++ [u]) s'.
Proof.
  intros P NI HU HM O PF. destruct (p1_out _ _ P u NI) as [HN MN]. unfold load_one. cbn [j_id entry]. rewrite MN.
  destruct (dget K0 (f_evs f)) as [v0|] eqn:V0; [|destruct (fo_k0 _ _ _ _ _ O V0)]. destruct (dget K1 (f_evs f)) as [v1|] eqn:V1; [|destruct (fo_k1 _ _ _ _ _ O V1)].
  destruct (ser_evs_get _ (fo_evs _ _ _ _ _ O)) as (SG & _ & _).
  set (g0 := Fr (f_parent f) [] (f_flow f) (f_dir f) (f_bg f) false None new_evs [(None, null_term (f_flow f) (f_dir f))]).
  (* the heap after the links and the balance are set *)
  set (h0 := match f_parent f with Some p => add_child sh (hset (g_heap s) u g0) true u u p | None => hset (g_heap s) u g0 end).
  assert (A : exists h1 g1, (if f_isbal f then set_balance_flow refq h0 u else (h0, FOk tt)) = (h1, FOk tt) /\
     (h1 u = Some g1 /\ f_evs g1 = new_evs /\ f_parent g1 = f_parent f /\ f_children g1 = [] /\ f_flow g1 = f_flow f /\ f_dir g1 = f_dir f /\ f_bg g1 = f_bg f /\ f_isbal g1 = f_isbal f /\ f_cons g1 = None /\ f_terms g1 = [(None, null_term (f_flow f) (f_dir f))]) /\
     (observable h1 g1 (ScKey K0) = FOk true \/ v0 = Some (Q2Qc 1)) /\
     (forall j, j <> u -> f_parent f <> Some j -> h1 j = g_heap s j) /\
     (forall p pf, f_parent f = Some p -> g_heap s p = Some pf -> h1 p = Some (Fr (f_parent pf) (f_children pf ++ [u]) (f_flow pf) (f_dir pf) (f_bg pf) (f_isbal pf) (if f_isbal f then Some (refq (f_flow f)) else f_cons pf) (f_evs pf) (f_terms pf)))).
  { destruct (f_parent f) as [p|] eqn:FP.
    - assert (JP := PF p eq_refl). assert (NP : p <> u) by (intros ->; contradiction). destruct (p1_in _ _ P p JP) as (fp & mp & fp1 & mp1 & HP & HMP & HP1 & PP & _). destruct (OK p fp HP) as (mp' & HMP' & OP).
      assert (KU : In u (f_children fp)) by (apply (fo_kids _ _ _ _ _ OP); eauto).
      assert (M1 : forall c, In c (f_children fp1) -> In c L) by (intros c J; rewrite (pt_children _ _ _ _ PP) in J; apply filter_In in J; apply J).
      assert (H0 : h0 = hset (hset (g_heap s) u g0) p (with_children fp1 (f_children fp1 ++ [u]))).
      { unfold h0, add_child. rewrite hs_other by exact NP. rewrite HP1. destruct (mem_spec u (f_children fp1)) as [J|_]; [destruct (NI (M1 _ J))|]. destruct (mem_spec (sh u) (f_children fp1)) as [J|_]; [|reflexivity].
        apply M1 in J. destruct (p1_in _ _ P _ J) as (fs & _ & _ & _ & HS & _). destruct (SHADOW u _ fs HS eq_refl). }
      assert (H0U : h0 u = Some g0) by (rewrite H0, hs_other by (apply not_eq_sym, NP); apply hs_same). assert (H0P : h0 p = Some (with_children fp1 (f_children fp1 ++ [u]))) by (rewrite H0; apply hs_same).
      destruct (f_isbal f) eqn:IB.
      + (* the parent conserves nothing yet *)
        assert (PC : f_cons fp1 = None).
        { rewrite (pt_cons _ _ _ _ PP). destruct (existsb (balkid p) L) eqn:X; [|reflexivity]. apply existsb_exists in X as (c & J & X). unfold balkid in X. apply andb_prop in X as [X Y]. destruct (g_heap st c) as [gc|] eqn:HC; [|discriminate].
          apply (kid_spec p c fp mp' HP OP) in X. assert (c = u) by (apply (fo_one _ _ _ _ _ OP c u gc f X KU HC HU Y IB)). subst c. contradiction. }
        exists (hset (hset h0 p (with_cons (with_children fp1 (f_children fp1 ++ [u])) (Some (refq (f_flow f))))) u (with_bal g0 true)), (with_bal g0 true).
        split; [unfold set_balance_flow; rewrite H0U; cbn [f_isbal g0 f_parent]; rewrite H0P; cbn [f_cons with_children]; rewrite PC; rewrite hs_other by (apply not_eq_sym, NP); rewrite H0U; reflexivity|].
        split; [split; [apply hs_same|repeat split; cbn; congruence]|]. split; [right; assert (X := fo_bal _ _ _ _ _ O IB); rewrite V0 in X; injection X as ->; reflexivity|]. split.
        * intros j N1 N2. rewrite hs_other by exact N1. rewrite hs_other by congruence. rewrite H0. rewrite hs_other by congruence. apply hs_other, N1.
        * intros p' pf [= <-] HP'. rewrite HP1 in HP'. injection HP' as <-. rewrite hs_other by exact NP. rewrite hs_same. reflexivity.
      + exists h0, g0. split; [reflexivity|]. split; [split; [exact H0U|repeat split; cbn; congruence]|]. split.
        * left. unfold observable. cbn [f_parent g0 f_isbal]. rewrite H0P. unfold termination. cbn. rewrite (pt_terms _ _ _ _ PP). cbn. reflexivity.
        * split; [intros j N1 N2; rewrite H0; rewrite hs_other by congruence; apply hs_other, N1|]. intros p' pf [= <-] HP'. rewrite HP1 in HP'. injection HP' as <-. rewrite H0P. reflexivity.
    - rewrite (fo_ref _ _ _ _ _ O FP). exists h0, g0. split; [reflexivity|]. split; [split; [apply hs_same|repeat split; cbn; congruence]|]. split; [left; reflexivity|]. split; [intros j N1 _; apply hs_other, N1|discriminate]. }
  destruct A as (h1 & g1 & A1 & (U1 & GE & GP & GC & GF & GD & GB & GI & GN & GT) & OB & FR1 & PAR1).
  destruct (cached_new h1 u g1 v0 U1 GE OB) as (h2 & e & C2 & U2 & FR2 & E0 & EN).
  set (ev := load_evs (sort_keys (ser_evs (f_evs f))) (dset K1 v1 e)).
  assert (FJ : from_json refq sh s u (entry u f m) = (hset h2 u (with_evs (with_evs g1 e) ev), FOk tt)).
  { unfold from_json, entry. cbn [j_flow j_dir j_evs j_parent j_bg j_bal j_id]. rewrite (SG K0 v0 V0 : dget "0" _ = _). rewrite (parent_ok L s u f P PF HU). rewrite MN. fold g0. fold h0. rewrite A1. cbn [hbind]. rewrite C2. cbn [hbind]. rewrite U2, (SG K1 v1 V1 : dget "1" _ = _). reflexivity. }
  rewrite FJ. cbn [load_tags entry j_tags]. eexists. split; [reflexivity|].
  assert (EV : forall k, dget k ev = dget k (f_evs f)).
  { apply evs_round_trip; [exact (fo_evs _ _ _ _ _ O)| | |].
    - rewrite dget_dset_other by discriminate. congruence.
    - rewrite dget_dset_same. congruence.
    - intros k N0 N1. rewrite dget_dset_other by exact N1. apply EN; assumption. }
  assert (KX : forall x, kid x u = match f_parent f with Some p => Nat.eqb p x | None => false end) by (intros x; unfold kid; rewrite HU; reflexivity).
  assert (BX : forall x, balkid x u = (match f_parent f with Some p => Nat.eqb p x | None => false end) && f_isbal f) by (intros x; unfold balkid; rewrite KX, HU; reflexivity).
  split; cbn [g_heap g_meta g_map].
  - intros w NW. assert (w <> u) by (intros ->; apply NW, in_or_app; right; left; reflexivity). assert (~ In w L) by (intros J; apply NW, in_or_app; left; exact J). destruct (p1_out _ _ P w H0) as [X Y]. split.
    + rewrite hs_other by exact H. rewrite FR2 by exact H. rewrite FR1; [exact X|exact H|]. intros FP. apply H0, PF, FP.
    + destruct (Nat.eqb_spec w u); [contradiction|exact Y].
  - intros w J. apply in_app_iff in J as [J|[<-|[]]].
    + assert (NW : w <> u) by (intros ->; contradiction). destruct (p1_in _ _ P w J) as (fw & mw & fw1 & mw1 & HW & HMW & HW1 & PW & HMW1 & SMW). exists fw, mw.
      destruct (f_parent f) as [p|] eqn:FP; [destruct (Nat.eq_dec p w) as [->|NPW]|].
      * exists (Fr (f_parent fw1) (f_children fw1 ++ [u]) (f_flow fw1) (f_dir fw1) (f_bg fw1) (f_isbal fw1) (if f_isbal f then Some (refq (f_flow f)) else f_cons fw1) (f_evs fw1) (f_terms fw1)), mw1.
        split; [exact HW|]. split; [exact HMW|]. split; [rewrite hs_other by exact NW; rewrite FR2 by exact NW; apply PAR1; auto|]. split; [|split; [destruct (Nat.eqb_spec w u); [contradiction|exact HMW1]|exact SMW]].
        destruct PW. split; cbn; try assumption.
        -- rewrite filter_snoc, KX, Nat.eqb_refl. congruence.
        -- rewrite existsb_snoc, BX, Nat.eqb_refl. cbn. destruct (f_isbal f) eqn:IB; [|rewrite orb_false_r; exact pt_cons0]. rewrite orb_true_r. destruct (OK w fw HW) as (mw' & _ & OW). symmetry. apply (fo_cons _ _ _ _ _ OW). exists u, f. split; [apply (fo_kids _ _ _ _ _ OW); eauto|auto].
      * exists fw1, mw1. split; [exact HW|]. split; [exact HMW|]. split; [rewrite hs_other by exact NW; rewrite FR2 by exact NW; rewrite FR1 by congruence; exact HW1|]. split; [|split; [destruct (Nat.eqb_spec w u); [contradiction|exact HMW1]|exact SMW]].
        assert (EQ : Nat.eqb p w = false) by (apply Nat.eqb_neq, NPW). destruct PW. split; try assumption; [rewrite filter_snoc, KX, EQ, app_nil_r; assumption|rewrite existsb_snoc, BX, EQ; cbn; rewrite orb_false_r; assumption].
      * exists fw1, mw1. split; [exact HW|]. split; [exact HMW|]. split; [rewrite hs_other by exact NW; rewrite FR2 by exact NW; rewrite FR1 by congruence; exact HW1|]. split; [|split; [destruct (Nat.eqb_spec w u); [contradiction|exact HMW1]|exact SMW]].
        destruct PW. split; try assumption; [rewrite filter_snoc, KX, app_nil_r; assumption|rewrite existsb_snoc, BX; cbn; rewrite orb_false_r; assumption].
    + exists f, m. eexists _, _. split; [exact HU|]. split; [exact HM|]. split; [apply hs_same|]. rewrite Nat.eqb_refl. split; [|split; [reflexivity|]].
      * (* no child of the new fragment has been loaded *)
        assert (NK : forall c, In c (L ++ [u]) -> kid u c = false).
        { intros c J. destruct (kid u c) eqn:K; [|reflexivity]. apply in_app_iff in J as [J|[<-|[]]].
          - destruct (p1_in _ _ P c J) as (fc & mc & fc1 & mc1 & HC & _ & HC1 & PC & _). unfold kid in K. rewrite HC in K. destruct (f_parent fc) as [q|] eqn:FQ; [|discriminate]. apply Nat.eqb_eq in K. subst q. destruct (NI (p1_up _ _ P c fc u J HC FQ)).
          - rewrite KX in K. destruct (f_parent f) as [p|] eqn:FP; [|discriminate]. apply Nat.eqb_eq in K. subst p. destruct (NI (PF u eq_refl)). }
        split; cbn; try congruence; try assumption.
        -- rewrite GC. symmetry. induction (L ++ [u]) as [|c l IH]; cbn; [reflexivity|]. rewrite (NK c (or_introl eq_refl)). apply IH. intros d J. apply NK. right. exact J.
        -- rewrite GN. destruct (existsb (balkid u) (L ++ [u])) eqn:X; [|reflexivity]. apply existsb_exists in X as (c & J & X). unfold balkid in X. rewrite (NK c J) in X. discriminate.
      * split; cbn; [unfold ext_of; rewrite HM; destruct (m_name m); reflexivity|reflexivity|apply (tags_ok u f m O)].
  - intros w fw p J HW FP. apply in_or_app. left. apply in_app_iff in J as [J|[<-|[]]]; [exact (p1_up _ _ P w fw p J HW FP)|]. apply PF. congruence.
  - intros n w. assert (IFF : In w (L ++ [u]) <-> In w L \/ w = u) by (rewrite in_app_iff; cbn; intuition). unfold entry. cbn [j_ext]. unfold ext_of. rewrite HM. destruct (m_name m) as [nu|] eqn:MU.
    + rewrite dget_dset. destruct (eqb_spec n nu) as [->|NN]; split.
      * intros [= <-]. split; [apply IFF; auto|]. exists m. auto.
      * intros (J & mw & HMW & MW). f_equal. apply IFF in J as [J|J]; [|auto]. destruct (p1_in _ _ P w J) as (fw & _ & _ & _ & HW & _). apply (NAMES u w f fw m mw nu HU HW HM HMW MU MW).
      * intros X. apply (p1_map _ _ P) in X as (J & X). split; [apply IFF; auto|exact X].
      * intros (J & mw & HMW & MW). apply (p1_map _ _ P). apply IFF in J as [J| ->]; [split; eauto|congruence].
    + split.
      * intros X. apply (p1_map _ _ P) in X as (J & X). split; [apply IFF; auto|exact X].
      * intros (J & mw & HMW & MW). apply (p1_map _ _ P). apply IFF in J as [J| ->]; [split; eauto|congruence].
Qed.

(** all entries, parents first *)
Definition parents_first (L : list nat) : Prop := forall A u B f p, L = A ++ u :: B -> g_heap st u = Some f -> f_parent f = Some p -> In p A.
Definition entries (js : list jfrag) (L : list nat) : Prop := Forall2 (fun j u => serialize st u = FOk j) js L.
Lemma load_all js : forall L A s, entries js L -> NoDup (A ++ L) -> (forall u, In u L -> g_heap st u <> None) -> parents_first (A ++ L) -> pass1 A s ->
  exists s', geach js (load_one refq sh) s = (s', FOk tt) /\ pass1 (A ++ L) s'.
Proof.
  induction js as [|j js IH]; intros L A s EN ND EX PF P; inversion EN as [|? u ? L' EJ EN']; subst.
  - exists s. rewrite app_nil_r. split; [reflexivity|exact P].
  - destruct (g_heap st u) as [f|] eqn:HU; [|destruct (EX u (or_introl eq_refl) HU)]. destruct (OK u f HU) as (m & HM & O). rewrite (serialize_ok u f m HU HM O) in EJ. injection EJ as <-.
    assert (AA : A ++ u :: L' = (A ++ [u]) ++ L') by (rewrite <- app_assoc; reflexivity).
    destruct (load_step A s u f m P) as (s1 & E1 & P1'); [|exact HU|exact HM|exact O| |].
    + intros J. apply NoDup_remove_2 in ND. apply ND, in_or_app. left. exact J.
    + intros p FP. exact (PF A u L' f p eq_refl HU FP).
    + cbn [geach]. rewrite E1. rewrite AA in *. apply IH; try assumption. intros w J. apply EX. right. exact J.
Qed.

(** * The second pass *)
Record pass2 (L D : list nat) (s : fgs) : Prop := P2 {
  p2_out : forall u, ~ In u L -> g_heap s u = None /\ g_meta s u = None;
  p2_in : forall u, In u L -> exists f m f1 m1, g_heap st u = Some f /\ g_meta st u = Some m /\ g_heap s u = Some f1 /\ g_meta s u = Some m1 /\ same_meta m m1 /\
    exists f0, part L u f f0 /\ (f1 = with_terms f0 (f_terms f1)) /\ if mem u D then forall k, dget k (f_terms f1) = dget k (f_terms f) else f1 = f0;
  p2_map : forall n u, dget n (g_map s) = Some u <-> In u L /\ exists m, g_meta st u = Some m /\ m_name m = Some n }.
Lemma resolve2_ok L D s u : pass2 L D s -> In u L -> resolve s (ext_of st u) = Some u.
Proof.
  intros P J. destruct (p2_in _ _ _ P u J) as (f & m & f1 & m1 & HU & HM & H1 & _). unfold ext_of. rewrite HM. destruct (m_name m) as [n|] eqn:MN; cbn; [|rewrite H1; reflexivity].
  apply (p2_map _ _ _ P). split; [exact J|]. exists m. auto.
Qed.
Lemma finish_step L D s u f m : pass2 L D s -> (forall u f, g_heap st u = Some f -> In u L) -> ~ In u D -> g_heap st u = Some f -> g_meta st u = Some m -> storable refq st u f m ->
  exists s', finish_one s (entry u f m) = (s', FOk tt) /\ pass2 L (u :: D) s'.
Proof.
  intros P ALL NI HU HM O. assert (J := ALL u f HU). destruct (p2_in _ _ _ P u J) as (f' & m' & f1 & m1 & HU' & HM' & H1 & HM1 & SM1 & f0 & PT0 & W & X). rewrite HU in HU'. injection HU' as <-. rewrite HM in HM'. injection HM' as <-.
  assert (MD : mem u D = false) by (apply mem_nIn; exact NI). rewrite MD in X. subst f0. unfold finish_one. cbn [j_id entry j_terms]. rewrite H1. eexists. split; [reflexivity|].
  assert (TR : forall k, dget k (fold_left (fun acc e => dset (load_tkey (fst e)) (term_of s f1 (snd e)) acc) (sort_keys (ser_terms st f)) (f_terms f1)) = dget k (f_terms f)).
  { apply (terms_round_trip (f_terms f) (ser_term st f) (term_of s f1)); [exact (fo_terms _ _ _ _ _ O)| | |exact (fo_t0 _ _ _ _ _ O)].
    - intros k t JT. unfold ser_term. rewrite <- (pt_flow _ _ _ _ PT0), <- (pt_dir _ _ _ _ PT0).
      assert (FL : match (if Nat.eqb (t_flow t) (f_flow f1) then None else Some (t_flow t)) with Some x => x | None => f_flow f1 end = t_flow t) by (destruct (Nat.eqb_spec (t_flow t) (f_flow f1)) as [->|]; reflexivity).
      assert (DR : match (match t_dir t, comp (f_dir f1) with Input, Input | Output, Output => None | d, _ => Some d end) with Some x => x | None => comp (f_dir f1) end = t_dir t) by (destruct (t_dir t), (comp (f_dir f1)); reflexivity).
      destruct (t_node t) as [|pr|w] eqn:TN; cbn [term_of].
      + rewrite (pt_flow _ _ _ _ PT0), (pt_dir _ _ _ _ PT0). symmetry. apply (fo_null _ _ _ _ _ O k t JT). unfold is_null. rewrite TN. reflexivity.
      + rewrite FL, DR, <- TN. destruct t; reflexivity.
      + destruct (g_heap st w) as [fw|] eqn:HW; [|destruct (fo_frag _ _ _ _ _ O k t w JT TN HW)]. rewrite (resolve2_ok L D s w P (ALL w fw HW)), FL, DR, <- TN. destruct t; reflexivity.
    - intros k NK. rewrite (pt_terms _ _ _ _ PT0). cbn. destruct (eqb_spec k (@None skey)); [contradiction|reflexivity]. }
  split; cbn [g_heap g_meta g_map].
  - intros w NW. assert (w <> u) by (intros ->; contradiction). rewrite hs_other by exact H. apply (p2_out _ _ _ P w NW).
  - intros w JW. destruct (Nat.eq_dec w u) as [->|NW].
    + exists f, m. eexists _, m1. split; [exact HU|]. split; [exact HM|]. split; [apply hs_same|]. split; [exact HM1|]. split; [exact SM1|]. exists f1. split; [exact PT0|]. split; [destruct f1; reflexivity|]. cbn [mem]. rewrite eqb_refl. cbn. exact TR.
    + destruct (p2_in _ _ _ P w JW) as (fw & mw & fw1 & mw1 & A1 & A2 & A3 & A4 & A5 & f0 & A6 & A7 & A8). exists fw, mw, fw1, mw1. rewrite hs_other by exact NW. repeat (split; [assumption|]). exists f0. split; [exact A6|]. split; [exact A7|].
      cbn [mem]. destruct (eqb_spec w u); [contradiction|]. cbn. exact A8.
  - exact (p2_map _ _ _ P).
Qed.
Lemma finish_all js : forall L T D s, entries js T -> NoDup T -> (forall u, In u T -> ~ In u D) -> (forall u, In u T -> g_heap st u <> None) -> (forall u f, g_heap st u = Some f -> In u L) -> pass2 L D s ->
  exists s' D', geach js finish_one s = (s', FOk tt) /\ pass2 L D' s' /\ (forall u, In u D' <-> In u D \/ In u T).
Proof.
  induction js as [|j js IH]; intros L T D s EN ND NI EX ALL P; inversion EN as [|? u ? T' EJ EN']; subst.
  - exists s, D. split; [reflexivity|]. split; [exact P|]. intros u. cbn. tauto.
  - destruct (g_heap st u) as [f|] eqn:HU; [|destruct (EX u (or_introl eq_refl) HU)]. destruct (OK u f HU) as (m & HM & O). rewrite (serialize_ok u f m HU HM O) in EJ. injection EJ as <-.
    destruct (finish_step L D s u f m P ALL (NI u (or_introl eq_refl)) HU HM O) as (s1 & E1 & P1'). inversion ND as [|? ? NT NT']; subst.
    destruct (IH L T' (u :: D) s1 EN' NT') as (s2 & D2 & E2 & P2' & DD); [| |exact ALL|exact P1'|].
    + intros w J [<-|K]; [contradiction|]. exact (NI w (or_intror J) K).
    + intros w J. apply EX. right. exact J.
    + exists s2, D2. cbn [geach]. rewrite E1. split; [exact E2|]. split; [exact P2'|]. intros w. rewrite DD. cbn. tauto.
Qed.

(** * Both passes *)
Definition same_state (s : fgs) : Prop := same_heap (g_heap st) (g_heap s) /\ forall u f m, g_heap st u = Some f -> g_meta st u = Some m -> exists m', g_meta s u = Some m' /\ same_meta m m'.
Lemma do_load_ok js L : entries js L -> NoDup L -> parents_first L -> (forall u, In u L <-> g_heap st u <> None) -> exists s, do_load refq sh js empty_fg = (s, FOk tt) /\ same_state s.
Proof.
  intros EN ND PF ALL. unfold do_load. destruct (load_all js L [] empty_fg EN ND) as (s1 & E1 & Q1); [intros u J; apply ALL, J|exact PF| |].
  { split; cbn; try tauto; try discriminate. intros n u. split; [discriminate|tauto]. }
  rewrite E1. cbn [app] in Q1. assert (ALL' : forall u f, g_heap st u = Some f -> In u L) by (intros u f HU; apply ALL; congruence).
  destruct (finish_all js L L [] s1 EN ND (fun u _ X => X) (fun u J => proj1 (ALL u) J) ALL') as (s2 & D & E2 & Q2 & DD).
  { split; [exact (p1_out _ _ Q1)| |exact (p1_map _ _ Q1)]. intros u J. destruct (p1_in _ _ Q1 u J) as (f & m & f1 & m1 & A1 & A2 & A3 & A4 & A5 & A6). exists f, m, f1, m1. repeat (split; [assumption|]). exists f1. split; [exact A4|]. split; [destruct f1; reflexivity|reflexivity]. }
  exists s2. split; [exact E2|]. split.
  - intros u. destruct (g_heap st u) as [f|] eqn:HU.
    + assert (J := ALL' u f HU). destruct (p2_in _ _ _ Q2 u J) as (f' & m & f1 & m1 & A1 & A2 & A3 & A4 & A5 & f0 & A6 & A7 & A8). rewrite HU in A1. injection A1 as <-. rewrite A3. destruct (OK u f HU) as (m' & HM & O).
      assert (MD : mem u D = true) by (apply mem_In, DD; right; exact J). rewrite MD in A8. rewrite A7. destruct A6. split; cbn; try assumption.
      * rewrite pt_children0. apply NoDup_Permutation; [apply NoDup_filter, ND|exact (fo_ndc _ _ _ _ _ O)|]. intros c. rewrite filter_In, (kid_spec u c f m' HU O). split; [tauto|]. intros K. split; [|exact K]. apply (fo_kids _ _ _ _ _ O) in K as (g & HC & _). exact (ALL' c g HC).
      * rewrite pt_cons0. destruct (existsb (balkid u) L) eqn:X; [reflexivity|]. destruct (f_cons f) as [q|] eqn:FC; [|reflexivity]. apply (fo_cons _ _ _ _ _ O) in FC as (c & g & JC & HC & IB & _).
        assert (existsb (balkid u) L = true) by (apply existsb_exists; exists c; split; [exact (ALL' c g HC)|]; unfold balkid; rewrite HC, IB; apply andb_true_intro; split; [apply (kid_spec u c f m' HU O); exact JC|reflexivity]). congruence.
    + assert (NJ : ~ In u L) by (intros J; apply ALL in J; contradiction). destruct (p2_out _ _ _ Q2 u NJ) as [-> _]. exact I.
  - intros u f m HU HM. destruct (p2_in _ _ _ Q2 u (ALL' u f HU)) as (f' & m' & f1 & m1 & A1 & A2 & A3 & A4 & A5 & _). exists m1. split; [exact A4|]. congruence.
Qed.
End Load.

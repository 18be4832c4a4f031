(** C105-C107: inventory queries; the background interface of an archive. *)
From Coq Require Import String List.
From Verif Require Import Num Base PyStr ProcModel ProcProofs ProcProps ConfModel ConfProofs ConfProofs2 ConfProps ConfProps2 ConfProps3 InvModel.
Open Scope nat_scope.
Open Scope string_scope.
Open Scope list_scope.

(** * C105 *)
Lemma get_pinv rq a pr p : archive rq a -> get a pr = Some p -> pinv p.
Proof. intros H G. eapply built_pinv, ar_built; eauto. Qed.
(** [exchange_values] yields, once each, exactly the exchanges of the process with the flow, in the direction and with the termination if given,
    without the references if asked for non-references. *)
Theorem C105_exact : forall rq s pr p f d t ref, archive rq (s_arch s) -> get (s_arch s) pr = Some p -> In f (s_flows s) -> ref <> Some true ->
  exists l, exchange_values s pr f d t ref = inl l /\ NoDup l
  /\ forall k, In k l <-> (exists e, dget k (p_exch p) = Some e /\ (ref = Some false -> x_ref e = false))
       /\ k_flow k = f /\ (d = None \/ d = Some (k_dir k)) /\ (t = None \/ t = k_term k).
Proof.
  intros rq s pr p f d t ref AR G F N. unfold exchange_values, proc_of. rewrite G. unfold fetch_flow.
  destruct (mem_spec f (s_flows s)) as [_|X]; [|contradiction]. pose proof (get_pinv _ _ _ _ AR G) as I. destruct (gen_exchanges_spec p (Some f) d None I) as [G1 G2].
  assert (E : forall l, (match ref with Some true => inl (filter (fun k : key => Nat.eqb (k_flow k) f) (p_refs p)) | _ => inl l end : list key + iexn) = inl l) by (intros l; destruct ref as [[]|]; congruence || reflexivity).
  eexists. split; [apply E|]. split; [apply NoDup_filter, G1|]. intros k. rewrite filter_In, G2, Bool.andb_true_iff.
  assert (K : In k (dkeys (p_exch p)) <-> exists e, dget k (p_exch p) = Some e).
  { split; [intros J; destruct (dget k (p_exch p)) as [e|] eqn:D; [eauto|exfalso; apply dget_None in D; contradiction]|intros [e D]; eapply dget_Some_key, D]. }
  assert (R : (exists e, dget k (p_exch p) = Some e /\ (ref = Some false -> x_ref e = false)) <->
              In k (dkeys (p_exch p)) /\ negb (match ref with Some false => is_ref p k | _ => false end) = true).
  { rewrite K. split.
    - intros [e [D X]]. split; [eauto|]. destruct ref as [[]|]; try reflexivity. unfold is_ref. rewrite D, X; reflexivity.
    - intros [[e D] X]. exists e. split; [exact D|]. intros ->. unfold is_ref in X. rewrite D in X. destruct (x_ref e); [discriminate|reflexivity]. }
  rewrite R. assert (T : (match t with None => true | Some t => eqb (k_term k) (Some t) end) = true <-> (t = None \/ t = k_term k)).
  { destruct t as [t|]; [|tauto]. split; [intros X; apply (proj1 (eqb_eq _ _)) in X; auto|intros [X|X]; [discriminate|apply (proj2 (eqb_eq _ _)); auto]]. }
  rewrite T. assert (DD : (match d with None => True | Some d => k_dir k = d end) <-> (d = None \/ d = Some (k_dir k))).
  { destruct d as [d|]; [|tauto]. split; [intros ->; auto|intros [X|X]; congruence]. }
  rewrite DD. tauto.
Qed.
(** Asked for references it yields the references of the flow, whatever direction and termination are given. *)
Theorem C105_references_partial : forall rq s pr p f d t, archive rq (s_arch s) -> get (s_arch s) pr = Some p ->
  exists l, exchange_values s pr f d t (Some true) = inl l /\ NoDup l /\ forall k, In k l <-> In k (p_refs p) /\ k_flow k = f.
Proof.
  intros rq s pr p f d t AR G. unfold exchange_values, proc_of. rewrite G. eexists. split; [reflexivity|]. pose proof (get_pinv _ _ _ _ AR G) as I.
  split; [apply NoDup_filter, (pi_refs p I)|]. intros k. rewrite filter_In, Nat.eqb_eq. tauto.
Qed.
(** In a static archive a flow it does not know matches every exchange. *)
Theorem C105_refuted_unknown_flow : forall s pr p f, get (s_arch s) pr = Some p -> ~ In f (s_flows s) -> s_static s = true ->
  exchange_values s pr f None None None = inl (dkeys (p_exch p)).
Proof.
  intros s pr p f G F ST. unfold exchange_values, proc_of. rewrite G. unfold fetch_flow. destruct (mem_spec f (s_flows s)); [contradiction|]. rewrite ST. f_equal.
  assert (T : forall (l : list key) g, (forall k, g k = true) -> filter g l = l).
  { intros l g H. induction l as [|k l IH]; [reflexivity|]. cbn [filter]. rewrite H, IH. reflexivity. }
  rewrite T by reflexivity. unfold gen_exchanges. rewrite T by reflexivity. reflexivity.
Qed.
Definition shop : store := S town [0; 3] true.
Example C105_example : archive (fun _ => None) (s_arch shop) /\ exchange_values shop 12 0 (Some Input) None (Some false) = inl []
  /\ exchange_values shop 11 3 None None (Some false) = inl [(3, Output, None)] /\ exchange_values shop 12 0 (Some Input) None None = inl [(0, Input, None)].
Proof. split; [exact town_archive|]. repeat split; vm_compute; reflexivity. Qed.
(** The direction is ignored when references are asked for. *)
Theorem C105_refuted_direction : exchange_values shop 12 0 (Some Input) None (Some true) = inl [(0, Output, None); (0, Input, None)].
Proof. vm_compute. reflexivity. Qed.
Print Assumptions C105_exact. Print Assumptions C105_refuted_unknown_flow.

(** * C106 *)
(** Specification: the exchanges asked for, and their total in an inventory. *)
Definition wanted (f : nat) (d : dirn) (t : option string) (k : key) : bool :=
  (Nat.eqb (k_flow k) f && eqb (k_dir k) d && match t with None => true | Some t => eqb (k_term k) (Some t) end)%bool.
Definition amount (l : list (key * Qc)) (f : nat) (d : dirn) (t : option string) : Qc := Qcsum (map snd (filter (fun kv => wanted f d t (fst kv)) l)).
Definition values (l : list (key * Qc)) : list (key * option Qc) := map (fun kv => (fst kv, Some (snd kv))) l.
Lemma total_values l : total (map (fun kv : key * Qc => Some (snd kv)) l) = Some (Qcsum (map snd l)).
Proof. induction l as [|[k v] l IH]; [reflexivity|]. cbn [map total snd]. rewrite IH. reflexivity. Qed.
Lemma filter_values g l : filter (fun kv : key * option Qc => g (fst kv)) (values l) = values (filter (fun kv => g (fst kv)) l).
Proof. induction l as [|[k v] l IH]; [reflexivity|]. cbn [values map filter fst]. fold (values l). rewrite IH. destruct (g k); reflexivity. Qed.
Lemma filter_filter {A} (g h : A -> bool) l : filter h (filter g l) = filter (fun x => g x && h x)%bool l.
Proof. induction l as [|x l IH]; [reflexivity|]. cbn [filter]. destruct (g x); cbn [filter andb]; rewrite IH; reflexivity. Qed.
Lemma relation_core (l : list (key * Qc)) f d t (w : option Qc) v :
  (let xs := filter (fun kv => Nat.eqb (k_flow (fst kv)) f && eqb (k_dir (fst kv)) d)%bool (values l) in
   let xs := match t with None => xs | Some t => filter (fun kv => eqb (k_term (fst kv)) (Some t)) xs end in
   match xs with [] => inl (Q2Qc 0) | [x] => lift (pdiv (snd x) w) | _ => lift (pdiv (total (map snd xs)) w) end) = inl v ->
  (v = Q2Qc 0 /\ forall k x, In (k, x) l -> wanted f d t k = false) \/ (exists w', w = Some w' /\ w' <> Q2Qc 0 /\ v = (amount l f d t / w')%Qc).
Proof.
  cbv zeta. set (xs := match t with None => _ | Some t => _ end).
  assert (E : xs = values (filter (fun kv => wanted f d t (fst kv)) l)).
  { subst xs. rewrite (filter_values (fun k => Nat.eqb (k_flow k) f && eqb (k_dir k) d)%bool). destruct t as [t|].
    - rewrite (filter_values (fun k => eqb (k_term k) (Some t))), filter_filter. reflexivity.
    - f_equal. apply filter_ext. intros kv. unfold wanted. rewrite Bool.andb_true_r. reflexivity. }
  rewrite E. unfold amount. clear xs E. set (m := filter (fun kv => wanted f d t (fst kv)) l). intros H.
  assert (W : m = [] \/ lift (pdiv (Some (Qcsum (map snd m))) w) = inl v).
  { destruct m as [|[k1 v1] [|[k2 v2] m]]; [left; reflexivity|right|right].
    - rewrite <- H. cbn [values map snd Qcsum fold_right]. rewrite Qcplus_0_r. reflexivity.
    - rewrite <- H, <- total_values. unfold values. cbn [map fst snd]. rewrite map_map. reflexivity. }
  destruct W as [M|W].
  - left. rewrite M in H. cbn in H. injection H as <-. split; [reflexivity|]. intros k x J. destruct (wanted f d t k) eqn:X; [|reflexivity].
    assert (J2 : In (k, x) m) by (apply filter_In; split; assumption). rewrite M in J2. destruct J2.
  - right. unfold pdiv in W. destruct w as [w|]; [|discriminate]. destruct (eqb_spec w (Q2Qc 0)) as [|NZ]; cbn [lift] in W; [discriminate|]. injection W as <-. exists w. auto.
Qed.
(** What [exchange_relation] returns for a reference flow: the total of the matching exchanges in the inventory of that reference
    -- already per unit of it -- divided by the reference's value once more. *)
Theorem C106_relation : forall s pr p r f d t v, get (s_arch s) pr = Some p -> exchange_relation s pr (Some r) f d t = inl v ->
  exists n l, foreground s pr (Some r) = inl n /\ inventory s pr (Some r) = inl (values l)
  /\ ((v = Q2Qc 0 /\ forall k x, In (k, x) l -> wanted f d t k = false)
      \/ exists w, exch_value p n = Some w /\ w <> Q2Qc 0 /\ v = (amount l f d t / w)%Qc).
Proof.
  intros s pr p r f d t v G H. unfold exchange_relation in H. unfold foreground. unfold inventory in *. unfold proc_of in *. rewrite G in *.
  destruct (inventory_ref (acf (s_arch s)) p (SFlow r) None) as [l|e]; [|discriminate].
  destruct (find_exchange p (SFlow r) (Some true) None) as [n|e]; [|discriminate]. exists n, l. split; [reflexivity|]. split; [reflexivity|].
  apply relation_core in H. destruct H as [H|[w H]]; [left; exact H|right; exists w; exact H].
Qed.
(** So it is the amount per unit of the reference if the reference's value is 1.  Missing: all other values -- refuted next. *)
Theorem C106_unit_partial : forall s pr p r f d t v n l, get (s_arch s) pr = Some p -> exchange_relation s pr (Some r) f d t = inl v ->
  foreground s pr (Some r) = inl n -> exch_value p n = Some (Q2Qc 1) -> inventory s pr (Some r) = inl (values l) -> v = amount l f d t.
Proof.
  intros s pr p r f d t v n l G H F W IV. destruct (C106_relation _ _ _ _ _ _ _ _ G H) as [n' [l' [F' [IV' X]]]]. assert (n' = n) as -> by congruence.
  assert (l' = l) as ->. { assert (E : values l' = values l) by congruence. revert E. clear. revert l. induction l' as [|[k x] l' IH]; intros [|[k2 x2] l]; cbn; intros E; try discriminate; [reflexivity|].
    injection E as -> -> E. f_equal. apply IH, E. }
  destruct X as [[-> X]|[w [W' [NZ ->]]]].
  - unfold amount. assert (E : filter (fun kv : key * Qc => wanted f d t (fst kv)) l = []); [|rewrite E; reflexivity].
    clear IV IV'. induction l as [|[k x] l IH]; [reflexivity|]. cbn [filter fst]. rewrite (X k x) by (left; reflexivity). apply IH. intros k' x' J. apply (X k' x'). right. exact J.
  - rewrite W in W'. injection W' as <-. field. intros X. discriminate.
Qed.
(** Whenever the reference's value is not 1 and there is an amount to report, the answer is another number. *)
Theorem C106_refuted_value : forall s pr p r f d t v n l w, get (s_arch s) pr = Some p -> exchange_relation s pr (Some r) f d t = inl v ->
  foreground s pr (Some r) = inl n -> exch_value p n = Some w -> inventory s pr (Some r) = inl (values l) -> w <> Q2Qc 1 -> amount l f d t <> Q2Qc 0 -> v <> amount l f d t.
Proof.
  intros s pr p r f d t v n l w G H F W IV N1 NA. destruct (C106_relation _ _ _ _ _ _ _ _ G H) as [n' [l' [F' [IV' X]]]]. assert (n' = n) as -> by congruence.
  assert (l' = l) as ->. { assert (E : values l' = values l) by congruence. revert E. clear. revert l. induction l' as [|[k x] l' IH]; intros [|[k2 x2] l]; cbn; intros E; try discriminate; [reflexivity|].
    injection E as -> -> E. f_equal. apply IH, E. }
  destruct X as [[-> X]|[w' [W' [NZ ->]]]]; [congruence|]. assert (w' = w) as -> by congruence. intros E. apply N1.
  assert (E2 : (amount l f d t = amount l f d t * w)%Qc). { rewrite <- E at 2. field. exact NZ. }
  assert (E3 : (amount l f d t * (w - 1) = 0)%Qc) by (replace (amount l f d t * (w - 1))%Qc with (amount l f d t * w - amount l f d t)%Qc by ring; rewrite <- E2; ring).
  apply Qcmult_integral in E3 as [E3|E3]; [contradiction|]. replace w with ((w - 1) + 1)%Qc by ring. rewrite E3. ring.
Qed.
(** Without a reference flow, on a process with one reference, it is the total of the matching values per unit of that reference. *)
Theorem C106_default_reference : forall s pr p f d t v l, get (s_arch s) pr = Some p -> exchange_relation s pr None f d t = inl v ->
  map (fun ke => (fst ke, value (snd ke))) (p_exch p) = values l ->
  exists n, foreground s pr None = inl n /\ ((v = Q2Qc 0 /\ forall k x, In (k, x) l -> wanted f d t k = false)
      \/ exists w, exch_value p n = Some w /\ w <> Q2Qc 0 /\ v = (amount l f d t / w)%Qc).
Proof.
  intros s pr p f d t v l G H VL. unfold exchange_relation in H. unfold foreground. unfold inventory in *. unfold proc_of in *. rewrite G in *. rewrite VL in H.
  destruct (find_exchange p SNone (Some true) None) as [n|e]; [|discriminate]. exists n. split; [reflexivity|].
  apply relation_core in H. destruct H as [H|[w H]]; [left; exact H|right; exists w; exact H].
Qed.
Print Assumptions C106_relation. Print Assumptions C106_unit_partial. Print Assumptions C106_refuted_value. Print Assumptions C106_default_reference.
(** A process that makes 10 of flow 0 from 5 of flow 5, a fifth of it from another supplier: 1/2 per unit.  Asked for with the reference flow the answer is 1/20. *)
Definition mill : store := S (A [(10, grow [PAddExchange 0 Output None (Some (Q2Qc 10)) TNone false; PAddReference 0 Output;
  PAddExchange 5 Input None (Some (Q2Qc 4)) (TStr "grid") false; PAddExchange 5 Input None (Some (Q2Qc 1)) (TStr "solar") false])] [] None) [0; 5] true.
Example C106_example : exchange_relation mill 10 (Some 0) 5 Input None = inl (Q2Qc (1 # 20)) /\ exchange_relation mill 10 None 5 Input None = inl (Q2Qc (1 # 2))
  /\ exchange_relation mill 10 (Some 0) 5 Input (Some "solar") = inl (Q2Qc (1 # 100)) /\ exchange_relation mill 10 (Some 0) 7 Input None = inl (Q2Qc 0).
Proof. repeat split; vm_compute; f_equal; apply Qc_is_canon; reflexivity. Qed.

(** * C107 *)
(** Background flows: exactly the reference exchanges of all processes. *)
Theorem C107_background_flows : forall rq s f d pr, archive rq (s_arch s) ->
  (In (f, d, pr) (background_flows s) <-> exists p k, get (s_arch s) pr = Some p /\ In k (p_refs p) /\ f = k_flow k /\ d = k_dir k).
Proof.
  intros rq s f d pr AR. destruct (archive_shape _ _ AR) as [SH _]. unfold background_flows. rewrite in_flat_map. split.
  - intros [[pr' p] [J X]]. apply in_map_iff in X as [k [E K]]. cbn [fst snd] in *. injection E as <- <- <-. exists p, k. split; [apply in_procs; assumption|auto].
  - intros [p [k [G [K [-> ->]]]]]. exists (pr, p). split; [apply in_procs; assumption|]. apply in_map_iff. exists k. auto.
Qed.
Lemma make_index_partner rq s f d l : archive rq (s_arch s) -> a_ti (s_arch s) = None -> terminate (make_index (s_arch s)) f d = inl l ->
  (l = [] <-> forall pr, ~ partner (s_arch s) f d pr).
Proof.
  intros AR N T. destruct (C104_first_index rq (s_arch s) f d l AR N T) as [E _]. split.
  - intros -> pr X. apply E in X. destruct X.
  - intros X. destruct l as [|pr l]; [reflexivity|]. exfalso. apply (X pr), E. left. reflexivity.
Qed.
(** Exterior flows -- those no process terminates -- are never reported: if there is one the query raises AttributeError, otherwise it is empty. *)
Theorem C107_refuted_exterior : forall rq s d, archive rq (s_arch s) -> a_ti (s_arch s) = None -> (forall str, d = Some str -> means str Input \/ means str Output) ->
  ((exists f, In f (s_flows s) /\ forall pr, ~ partner (s_arch s) f d pr) /\ exterior_flows s d (s_flows s) = inr IAttributeError)
  \/ ((forall f, In f (s_flows s) -> exists pr, partner (s_arch s) f d pr) /\ exterior_flows s d (s_flows s) = inl []).
Proof.
  intros rq s d AR N D. induction (s_flows s) as [|f fs IH]; cbn [exterior_flows]; [right; split; [intros f []|reflexivity]|].
  destruct (terminate (make_index (s_arch s)) f d) as [l|e] eqn:T.
  - pose proof (make_index_partner rq s f d l AR N T) as P. destruct l as [|pr l].
    + left. split; [|reflexivity]. exists f. split; [left; reflexivity|]. apply P. reflexivity.
    + destruct IH as [[[f' [J X]] E]|[X E]].
      * left. split; [exists f'; split; [right; exact J|exact X]|exact E].
      * right. split; [|exact E]. intros f' [<-|J]; [|apply X, J]. exists pr. destruct (C104_first_index rq (s_arch s) f d (pr :: l) AR N T) as [Q _]. apply Q. left. reflexivity.
  - exfalso. assert (X : exists e, terminate (make_index (s_arch s)) f d = inr e) by (exists e; exact T). apply C104_direction in X as [str [-> [X Y]]]. destruct (D str eq_refl); auto.
Qed.
(** In a static archive everything is in the background, known or not. *)
Theorem C107_refuted_in_background : forall s pr, s_static s = true -> is_in_background s pr = true.
Proof. intros s pr H. unfold is_in_background. rewrite H. reflexivity. Qed.
Theorem C107_in_background_partial : forall s pr, s_static s = false -> (is_in_background s pr = true <-> exists p, get (s_arch s) pr = Some p).
Proof. intros s pr H. unfold is_in_background, proc_of. rewrite H. destruct (get (s_arch s) pr) as [p|]; split; eauto; try discriminate. intros [p X]; discriminate. Qed.
(** No score can be computed through the background interface of an archive. *)
Theorem C107_refuted_bg_lcia : forall s pr, exists e, bg_lcia s pr = inr e.
Proof. intros s pr. unfold bg_lcia. destruct (proc_of s pr); eauto. Qed.
(** The flattened background: a process named by its reference, or a reference exchange, is asked for under (process, reference flow);
    the flow is that of a reference of the process and is the one asked for. *)
Theorem C107_arguments : forall rq A (q : nat -> nat -> A) none s b opt x pr, archive rq (s_arch s) -> (b = BStr pr \/ exists k, b = BExch pr k) -> ask q none s b opt = inl x ->
  exists p k, get (s_arch s) pr = Some p /\ In k (p_refs p) /\ x = q pr (k_flow k) /\ (b = BStr pr -> forall f, opt = Some f -> k_flow k = f) /\ (forall k', b = BExch pr k' -> k = k').
Proof.
  intros rq A q none s b opt x pr AR B H. unfold ask, check_ref in H. destruct B as [->|[k ->]].
  - unfold foreground, proc_of in H. destruct (get (s_arch s) pr) as [p|] eqn:G; [|discriminate]. pose proof (get_pinv _ _ _ _ AR G) as I.
    pose proof (find_cases p (match opt with None => SNone | Some r => SFlow r end) (Some true) None I) as FC. cbv zeta in FC.
    destruct (find_exchange p _ (Some true) None) as [k|e]; [|discriminate]. cbn [lift] in H. injection H as <-.
    assert (M : matches p (match opt with None => SNone | Some r => SFlow r end) (Some true) None k).
    { destruct FC as [[X _]|[[k' [X [M _]]]|[[X _]|[X _]]]]; try discriminate. injection X as <-. exact M. }
    destruct M as [M1 [M2 [_ M4]]]. exists p, k. split; [reflexivity|]. split.
    { apply (pi_ref p I). unfold is_ref in M4. unfold is_ref_in. destruct (dget k (p_exch p)) as [e|]; [exists e; auto|discriminate]. }
    split; [reflexivity|]. split; [intros _ f ->; exact M2|]. intros k' X. discriminate.
  - unfold proc_of in H. destruct (get (s_arch s) pr) as [p|] eqn:G; [|discriminate]. pose proof (get_pinv _ _ _ _ AR G) as I. destruct (is_ref p k) eqn:R; [|discriminate]. injection H as <-.
    exists p, k. split; [reflexivity|]. split. { apply (pi_ref p I). unfold is_ref in R. unfold is_ref_in. destruct (dget k (p_exch p)) as [e|]; [exists e; auto|discriminate]. }
    split; [reflexivity|]. split; [intros X; discriminate|]. intros k' X. injection X as <-. reflexivity.
Qed.
(** Given the process itself, as an object, every query answers as for a product that does not exist: for instance not to be in the background. *)
Theorem C107_refuted_process_argument : forall A (q : nat -> nat -> A) none s pr opt x, ask q none s (BProc pr) opt = inl x -> x = none.
Proof. intros A q none s pr opt x H. unfold ask, check_ref in H. destruct (foreground s pr opt); [|discriminate]. injection H as <-. reflexivity. Qed.
Print Assumptions C107_background_flows. Print Assumptions C107_refuted_exterior. Print Assumptions C107_arguments.
Example C107_example : archive (fun _ => None) (s_arch shop) /\ a_ti (s_arch shop) = None /\ background_flows shop = [(0, Output, 10); (0, Input, 11); (0, Output, 12); (0, Input, 12)]
  /\ exterior_flows shop None (s_flows shop) = inr IAttributeError /\ exterior_flows shop None [0] = inl []
  /\ ask (fun p f => Nat.eqb p 10 && Nat.eqb f 0)%bool false shop (BStr 10) None = inl true /\ ask (fun p f => Nat.eqb p 10 && Nat.eqb f 0)%bool false shop (BProc 10) None = inl false.
Proof. split; [exact town_archive|]. repeat split; vm_compute; reflexivity. Qed.

(** CompartmentManager.find_matching and its cache: C68 (a lookup does not depend on earlier lookups). *)
From Verif Require Import Base PyStr CompModel CompProps.
Open Scope string_scope.
Open Scope nat_scope.
Open Scope list_scope.
Local Arguments eqb : simpl never.

(** * Model *)
(** [compartment_string], compartments.py:26-32 ([filter(None, ..)] drops None and the empty string) *)
Fixpoint present (l : list (option string)) : list string :=
  match l with [] => [] | Some EmptyString :: t => present t | Some s :: t => s :: present t | None :: t => present t end.
Fixpoint join (l : list string) : string :=
  match l with [] => "" | [x] => x | x :: t => (x ++ "; " ++ join t)%string end.
Definition compartment_string (l : list (option string)) : string := join (present l).

(** the hierarchy and [_c_dict] (compartments.py:41-49) *)
Record manager := Man { m_root : comp; m_cache : dict string (list comp) }.

(** [find_matching] with [interact=False], compartments.py:147-184.  None as answer: MissingCompartment is raised
    ([check_elem=False]) or None is returned ([check_elem=True]). *)
Definition find_matching (m : manager) (req : list (option string)) (check_elem : bool) : manager * option (list comp) :=
  let cs := compartment_string req in
  match dget cs (m_cache m) with
  | Some p => (m, Some p)
  | None => match fst (crawl check_elem (m_root m) req) with
            | None => (m, None)
            | Some p => (Man (m_root m) (dset cs p (m_cache m)), Some p)
            end
  end.

Definition query := (list (option string) * bool)%type.
Fixpoint ask (m : manager) (h : list query) : manager * list (option (list comp)) :=
  match h with
  | [] => (m, [])
  | q :: t => let '(m1, a) := find_matching m (fst q) (snd q) in let '(m2, r) := ask m1 t in (m2, a :: r)
  end.

(** * C68 *)
(** what the same query answers on a manager that has just been created *)
Definition fresh_answer (root : comp) (q : query) : option (list comp) := snd (find_matching (Man root []) (fst q) (snd q)).

Fixpoint no_semicolon (s : string) : bool :=
  match s with EmptyString => true | String c r => negb (Ascii.eqb c ";") && no_semicolon r end.
Definition plain_name (o : option string) : Prop :=
  match o with Some s => s <> "" /\ no_semicolon s = true | None => False end.

Lemma sep_inj x : forall y r r', no_semicolon x = true -> no_semicolon y = true ->
  (x ++ "; " ++ r)%string = (y ++ "; " ++ r')%string -> x = y /\ r = r'.
Proof.
  induction x as [|c x IH]; intros [|d y] r r' Hx Hy E; cbn in *.
  - injection E as ->. auto.
  - injection E as <- _. discriminate.
  - injection E as -> _. discriminate.
  - apply andb_true_iff in Hx as [_ Hx], Hy as [_ Hy]. injection E as -> E. destruct (IH y r r' Hx Hy E) as [-> ->]. auto.
Qed.
Lemma sep_no x : forall y r, no_semicolon x = true -> x <> (y ++ "; " ++ r)%string.
Proof.
  induction x as [|c x IH]; intros [|d y] r H E; cbn in *; try discriminate.
  - injection E as -> _. discriminate.
  - apply andb_true_iff in H as [_ H]. injection E as _ E. eapply IH; eauto.
Qed.
Lemma join_inj l : forall l', Forall (fun s => s <> "" /\ no_semicolon s = true) l -> Forall (fun s => s <> "" /\ no_semicolon s = true) l' ->
  join l = join l' -> l = l'.
Proof.
  assert (Ne : forall l : list string, Forall (fun s => s <> "" /\ no_semicolon s = true) l -> join l = "" -> l = []).
  { intros [|x [|y t]] F E; auto; cbn in E; inversion F as [|? ? [N _] _]; subst; [congruence|destruct x; discriminate]. }
  induction l as [|x l IH]; intros [|x' l'] F F' E; auto.
  - symmetry in E. apply Ne in E; [discriminate|exact F'].
  - inversion F as [|? ? [N S] Fl]; inversion F' as [|? ? [N' S'] Fl']; subst.
    destruct l as [|y l], l' as [|y' l'].
    + cbn in E. congruence.
    + exfalso. eapply sep_no; [exact S|exact E].
    + exfalso. symmetry in E. eapply sep_no; [exact S'|exact E].
    + change (join (x :: y :: l)) with (x ++ "; " ++ join (y :: l))%string in E.
      change (join (x' :: y' :: l')) with (x' ++ "; " ++ join (y' :: l'))%string in E.
      apply sep_inj in E as [-> E]; auto. f_equal. apply IH; auto.
Qed.
Lemma present_plain l : Forall plain_name l -> map Some (present l) = l /\ Forall (fun s => s <> "" /\ no_semicolon s = true) (present l).
Proof.
  induction 1 as [|o t H F [IH1 IH2]]; cbn; [auto|]. destruct o as [[|c s]|]; cbn in H; [tauto| |tauto].
  cbn. rewrite IH1. split; auto.
Qed.
Lemma string_inj r r' : Forall plain_name r -> Forall plain_name r' -> compartment_string r = compartment_string r' -> r = r'.
Proof.
  intros F F' E. destruct (present_plain r F) as [A B], (present_plain r' F') as [A' B']. unfold compartment_string in E.
  rewrite <- A, <- A'. f_equal. apply join_inj; auto.
Qed.

(** Every history of full lookups by plain names (not null, not empty, no semicolon) answers each query as a newly created
    manager would. *)
Theorem C68_cache_transparent_partial root h :
  Forall (fun q => Forall plain_name (fst q) /\ snd q = false) h ->
  snd (ask (Man root []) h) = map (fresh_answer root) h.
Proof.
  assert (G : forall m, m_root m = root ->
    (forall cs p, dget cs (m_cache m) = Some p -> exists r, Forall plain_name r /\ cs = compartment_string r
        /\ fst (crawl false root r) = Some p) ->
    Forall (fun q => Forall plain_name (fst q) /\ snd q = false) h -> snd (ask m h) = map (fresh_answer root) h).
  { induction h as [|[r ce] t IH]; intros m Em Inv F; [reflexivity|]. inversion F as [|? ? [Fr Ec] Ft]; subst.
    cbn in Fr, Ec. subst ce. cbn [ask fst snd map].
    assert (Fa : fresh_answer (m_root m) (r, false) = fst (crawl false (m_root m) r)).
    { unfold fresh_answer, find_matching. cbn. destruct (fst (crawl false (m_root m) r)); reflexivity. }
    rewrite Fa. unfold find_matching. destruct (dget (compartment_string r) (m_cache m)) as [p|] eqn:D.
    - destruct (Inv _ _ D) as (r' & Fr' & Es & Ep). apply string_inj in Es; auto. subst r'.
      specialize (IH m eq_refl Inv Ft). destruct (ask m t) as [m2 a]. cbn in *. rewrite Ep, IH. reflexivity.
    - destruct (fst (crawl false (m_root m) r)) as [p|] eqn:Ec.
      + specialize (IH (Man (m_root m) (dset (compartment_string r) p (m_cache m))) eq_refl). cbn in IH.
        destruct (ask (Man (m_root m) (dset (compartment_string r) p (m_cache m))) t) as [m2 a]. cbn in *. rewrite IH; auto.
        intros cs p' D'. rewrite dget_dset in D'. destruct (eqb_spec cs (compartment_string r)) as [->|N]; eauto.
        injection D' as <-. eauto.
      + specialize (IH m eq_refl Inv Ft). destruct (ask m t) as [m2 a]. cbn in *. rewrite IH. reflexivity. }
  intros F. apply G; auto. cbn. discriminate.
Qed.

(** Refuted: a lookup that only asks whether the compartment is elementary stores the ancestor at which it stopped, and
    later full lookups of the same names return that ancestor. *)
Definition air_tree : comp := C "root" [] false [C "Emissions" [] true [C "air" [] true [C "urban" [] true []]]].
Theorem C68_check_elem_refuted :
  let req := [Some "Emissions"; Some "air"; Some "urban"] in
  option_map (map c_name) (fresh_answer air_tree (req, false)) = Some ["root"; "Emissions"; "air"; "urban"]
  /\ map (option_map (map c_name)) (snd (ask (Man air_tree []) [(req, true); (req, false)]))
     = [Some ["root"; "Emissions"]; Some ["root"; "Emissions"]].
Proof. vm_compute. split; reflexivity. Qed.
(** Refuted: the cache key ignores empty names and does not quote separators, the search does not. *)
Theorem C68_key_refuted :
  let r1 := [Some "Emissions"; Some "air"] in
  let r2 := [Some "Emissions; air"] in let r3 := [Some "Emissions"; Some ""; Some "air"] in
  fresh_answer air_tree (r2, false) = None /\ fresh_answer air_tree (r3, false) = None
  /\ map (option_map (map c_name)) (snd (ask (Man air_tree []) [(r1, false); (r2, false); (r3, false)]))
     = [Some ["root"; "Emissions"; "air"]; Some ["root"; "Emissions"; "air"]; Some ["root"; "Emissions"; "air"]].
Proof. vm_compute. repeat split; reflexivity. Qed.

Example C68_example :
  Forall (fun q => Forall plain_name (fst q) /\ snd q = false)
    [([Some "air"], false); ([Some "air"; Some "urban"], false); ([Some "air"], false)]
  /\ map (option_map (map c_name)) (snd (ask (Man air_tree []) [([Some "air"], false); ([Some "air"; Some "urban"], false); ([Some "air"], false)]))
     = [Some ["root"; "Emissions"; "air"]; Some ["root"; "Emissions"; "air"; "urban"]; Some ["root"; "Emissions"; "air"]].
Proof. split; [repeat constructor; cbn; congruence|vm_compute; reflexivity]. Qed.

Print Assumptions C68_cache_transparent_partial.

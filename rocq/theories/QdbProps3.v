(** C74, C59: where a factor comes from, in terms of what the database stores; what a query records on the flow; refreshing. *)
From Verif Require Import Num Base PyStr FlowModel FlowProps FlowProps2 QdbModel QdbProps QdbProps2.
Open Scope Qc_scope.
Open Scope string_scope.
Open Scope list_scope.
Local Arguments eqb : simpl never.

(** * Specification *)

(** The value of a stored factor at a location: the one recorded there, else the global one, else zero. *)
Definition value_at (loc : string) (y : cfac) (v : Qc) : Prop :=
  dget loc (cf_locs y) = Some v \/
  (dget loc (cf_locs y) = None /\ dget "GLO" (cf_locs y) = Some v) \/
  (dget loc (cf_locs y) = None /\ dget "GLO" (cf_locs y) = None /\ v = 0).

(** Carbon dioxide is quelled when the switch is on and it is a biogenic emission or is taken from the air. *)
Definition is_quelled (D : db) (quell : option bool) (x : qflow) (c : nat) : Prop :=
  In (db_co2 D) (qf_inds x) /\ (quell = Some true \/ (quell = None /\ db_quell D = true)) /\
  ((db_emission D c = true /\ qf_bio x = true) \/ (db_emission D c = false /\ db_from_air D c = true)).

(** A place where a conversion may be found: as for factors ([place]); when nothing is stored at any of those, the first
    of the ancestors of the parent where something is stored. *)
Definition far_place (D : db) (f q c c' : nat) : Prop :=
  place D f q c c' \/
  ((forall s, place D f q c s -> db_fq D f q s = []) /\
   exists p l1 l2, db_parent D c = Some p /\ db_anc D p = l1 ++ c' :: l2 /\ forall s, In s l1 -> db_fq D f q s = []).

(** A stored relation between the quantities [a] and [b]: [k] of [a] per unit of [b]. *)
Definition stored (D : db) (inds : list nat) (c a b : nat) (loc : string) (k : Qc) : Prop :=
  exists f c' y, In f inds /\ far_place D f a c c' /\ In y (db_fq D f a c') /\ db_qidx D (q_uuid (cf_ref y)) = b /\ value_at loc y k.
(** ... in the database: as stored, or the reciprocal of the opposite one when none is stored this way. *)
Definition db_conv (D : db) (inds : list nat) (c a b : nat) (loc : string) (k : Qc) : Prop :=
  stored D inds c a b loc k \/
  ((forall k', ~ stored D inds c a b loc k') /\ exists k', stored D inds c b a loc k' /\ k' <> 0 /\ k = 1 / k').

(** The flow's own characterization for the quantity [a]: the first one (in insertion order) whose quantity is [a], at its global
    value; 0 when it has values, but no global one. *)
Definition own_char (D : db) (f : flow) (a : nat) (ch : char) : Prop :=
  exists l1 u l2, f_chars f = l1 ++ (u, ch) :: l2 /\ db_qidx D (q_uuid (c_q ch)) = a /\
    forall p, In p l1 -> db_qidx D (q_uuid (c_q (snd p))) <> a.
Definition own_conv (D : db) (f : flow) (a : nat) (k : Qc) : Prop :=
  exists ch, own_char D f a ch /\
    (dget "GLO" (c_locs ch) = Some (Some k) \/ (dget "GLO" (c_locs ch) = None /\ c_locs ch <> [] /\ k = 0)).

Definition factor_conversion (D : db) (inds : list nat) (c rq : nat) (loc : string) (f : flow) (y : cfac) (k : Qc) : Prop :=
  let yq := db_qidx D (q_uuid (cf_ref y)) in
  (yq = rq /\ k = 1) \/
  (yq <> rq /\ own_conv D f yq k) \/
  (yq <> rq /\ (forall k', ~ own_conv D f yq k') /\ db_conv D inds c yq rq loc k).

(** * The model meets it *)

Lemma value_at_cf_at loc y v : value_at loc y v <-> cf_at loc y = v.
Proof.
  unfold value_at, cf_at. destruct (dget loc (cf_locs y)), (dget "GLO" (cf_locs y)); intuition (try discriminate; try congruence).
Qed.
Lemma quelled_spec D quell x c : quelled D quell x c = true <-> is_quelled D quell x c.
Proof.
  unfold quelled, is_quelled. rewrite !andb_true_iff, existsb_exists.
  assert (E : (exists n, In n (qf_inds x) /\ eqb (db_co2 D) n = true) <-> In (db_co2 D) (qf_inds x)).
  { split; [intros (n & J & E); destruct (eqb_spec (db_co2 D) n); [subst; exact J|discriminate]|intros J; exists (db_co2 D); rewrite eqb_refl; auto]. }
  rewrite E. destruct quell as [[]|], (db_emission D c), (db_quell D), (qf_bio x), (db_from_air D c); intuition congruence.
Qed.
Lemma conversion_from_flow_spec D f a k : conversion_from_flow D f a = Some k <-> own_conv D f a k.
Proof.
  unfold conversion_from_flow, own_conv, own_char. induction (f_chars f) as [|[u ch] l IH].
  - split; [discriminate|]. intros (ch & (l1 & u & l2 & E & _) & _). destruct l1; discriminate.
  - cbn [find snd]. destruct (eqb_spec (db_qidx D (q_uuid (c_q ch))) a) as [EQ|NE].
    + split.
      * intros E. exists ch. split; [exists [], u, l; split; [reflexivity|]; split; [exact EQ|intros p []]|].
        unfold char_get in E. replace (eqb "GLO" "quantity") with false in E by reflexivity. replace (eqb "GLO" "flow") with false in E by reflexivity.
        destruct (dget "GLO" (c_locs ch)) as [[w|]|]; cbn in E; [injection E as ->; auto|discriminate|].
        destruct (c_locs ch) eqn:CL; [discriminate|]. injection E as <-. right. repeat split; auto. discriminate.
      * intros (ch' & (l1 & u' & l2 & E & EQ' & N) & V). destruct l1 as [|p l1].
        -- injection E as -> -> ->. unfold char_get. replace (eqb "GLO" "quantity") with false by reflexivity. replace (eqb "GLO" "flow") with false by reflexivity.
           destruct V as [V|(V & NN & ->)]; rewrite V; [reflexivity|]. destruct (c_locs ch'); [congruence|reflexivity].
        -- injection E as <- ->. exfalso. apply (N (u, ch)); [left; reflexivity|exact EQ].
    + rewrite IH. split.
      * intros (ch' & (l1 & u' & l2 & E & EQ' & N) & V). exists ch'. split; [|exact V]. exists ((u, ch) :: l1), u', l2. rewrite E. repeat split; auto.
        intros p [<-|J]; [exact NE|apply N; exact J].
      * intros (ch' & (l1 & u' & l2 & E & EQ' & N) & V). exists ch'. split; [|exact V]. destruct l1 as [|p l1].
        -- injection E as -> -> ->. congruence.
        -- injection E as <- ->. exists l1, u', l2. repeat split; auto. intros p J. apply N. right; exact J.
Qed.

Lemma find2_all D f q c y c' : place D f q c c' -> In y (db_fq D f q c') ->
  In y (find2 D (db_fq D f q) c) \/ exists z, In z (find2 D (db_fq D f q) c) /\ cf_flow z = cf_flow y.
Proof.
  assert (U : forall (l m : list cfac) y, In y l \/ In y m -> exists z, In z (cf_union l m) /\ cf_flow z = cf_flow y).
  { clear. intros l m. unfold cf_union. revert l. induction m as [|w m IH]; intros l y [J|J]; cbn; [exists y; auto|destruct J| |].
    - apply IH. left. unfold cf_add. destruct (cf_mem w l); [exact J|apply in_app_iff; auto].
    - destruct J as [<-|J]; [|apply IH; auto]. unfold cf_add. destruct (cf_mem w l) eqn:M.
      + unfold cf_mem in M. apply existsb_exists in M as (d & Jd & E). destruct (eqb_spec (cf_flow w) (cf_flow d)) as [E'|]; [|discriminate].
        destruct (IH l d (or_introl Jd)) as (z & Jz & Ez). exists z. split; [exact Jz|congruence].
      + apply IH. left. apply in_app_iff. right; left; reflexivity. }
  assert (F : forall (g : nat -> list cfac) l y acc, (In y acc \/ exists s, In s l /\ In y (g s)) ->
    exists z, In z (fold_left (fun acc s => cf_union acc (g s)) l acc) /\ cf_flow z = cf_flow y).
  { clear -U. intros g. induction l as [|s l IH]; intros y acc [J|(s' & Js & J)]; cbn; [exists y; auto|destruct Js| |].
    - destruct (U acc (g s) y (or_introl J)) as (z & Jz & Ez). destruct (IH z _ (or_introl Jz)) as (w & Jw & Ew). exists w. split; [exact Jw|congruence].
    - destruct Js as [<-|Js]; [|apply IH; right; eauto].
      destruct (U acc (g s) y (or_intror J)) as (z & Jz & Ez). destruct (IH z _ (or_introl Jz)) as (w & Jw & Ew). exists w. split; [exact Jw|congruence]. }
  intros P J. unfold find2. destruct (db_fq D f q c) as [|z l] eqn:L.
  - destruct P as [->|[[_ Js]|(_ & N & Pa)]]; [rewrite L in J; destruct J| |].
    + destruct (F (db_fq D f q) (db_subs D c) y [] (or_intror (ex_intro _ c' (conj Js J)))) as (z & Jz & Ez).
      destruct (fold_left (fun acc s => cf_union acc (db_fq D f q s)) (db_subs D c) []) as [|w l] eqn:R; [destruct Jz|right; exists z; auto].
    + assert (R : fold_left (fun acc s => cf_union acc (db_fq D f q s)) (db_subs D c) [] = []).
      { revert N. induction (db_subs D c) as [|s l IH]; intros N; [reflexivity|]. cbn. rewrite (N s) by (left; reflexivity). cbn. apply IH. intros t Jt. apply N. right; exact Jt. }
      rewrite R, Pa. left. exact J.
  - destruct P as [->|[[E _]|(E & _)]]; [rewrite L in J; left; exact J|congruence|congruence].
Qed.

(** Where several factors of the same flow and quantity would be found in different subcompartments, the set keeps one. *)
Definition no_aliases (D : db) : Prop := forall f q c c' y y',
  In y (db_fq D f q c) -> In y' (db_fq D f q c') -> cf_flow y = cf_flow y' -> y = y'.

Lemma first_found_spec look l y : In y (first_found look l) -> exists l1 c l2, l = l1 ++ c :: l2 /\ In y (look c) /\ forall s, In s l1 -> look s = [].
Proof.
  induction l as [|p l IH]; cbn; [intros []|]. destruct (look p) as [|z m] eqn:L.
  - intros J. destruct (IH J) as (l1 & c & l2 & -> & Jc & N). exists (p :: l1), c, l2. repeat split; auto. intros s [<-|Js]; auto.
  - intros J. exists [], p, l. rewrite L. repeat split; auto. intros s [].
Qed.
Lemma first_found_all look l l1 c l2 y : l = l1 ++ c :: l2 -> (forall s, In s l1 -> look s = []) -> In y (look c) -> In y (first_found look l).
Proof.
  revert l. induction l1 as [|p l1 IH]; intros l -> N J; cbn.
  - destruct (look c) eqn:E; [destruct J|exact J].
  - rewrite (N p) by (left; reflexivity). eapply IH; [reflexivity| |exact J]. intros s Js. apply N. right; exact Js.
Qed.
Lemma find3_spec D f q c l y : find3 D (db_fq D f q) c = Some l -> In y l -> exists c', far_place D f q c c' /\ In y (db_fq D f q c').
Proof.
  unfold find3. destruct (find2 D (db_fq D f q) c) as [|z m] eqn:F2.
  - destruct (db_parent D c) as [p|] eqn:P; [|discriminate]. intros [= <-] J.
    apply first_found_spec in J as (l1 & c' & l2 & E & J & N). exists c'. split; [|exact J]. right. split; [apply find2_nil; exact F2|].
    exists p, l1, l2. auto.
  - intros [= <-] J. rewrite <- F2 in J. apply find2_place in J as (c' & P & J). exists c'. split; [left; exact P|exact J].
Qed.
Lemma find3_all D f q c l y c' : no_aliases D -> find3 D (db_fq D f q) c = Some l -> far_place D f q c c' -> In y (db_fq D f q c') -> In y l.
Proof.
  intros NA. unfold find3. intros E [P|(N & p & l1 & l2 & Pp & A & NN)] J.
  - assert (I2 : In y (find2 D (db_fq D f q) c)).
    { destruct (find2_all D f q c y c' P J) as [H|(z & Jz & Ez)]; [exact H|].
      destruct (find2_place D f q c z Jz) as (c'' & _ & Jz'). rewrite <- (NA f q c'' c' z y Jz' J Ez). exact Jz. }
    destruct (find2 D (db_fq D f q) c) eqn:F2; [destruct I2|]. injection E as <-. exact I2.
  - destruct (find2 D (db_fq D f q) c) as [|z m] eqn:F2.
    + rewrite Pp in E. injection E as <-. eapply first_found_all; eauto.
    + exfalso. destruct (find2_place D f q c z) as (c'' & P & Jz); [rewrite F2; left; reflexivity|]. rewrite (N c'' P) in Jz. destruct Jz.
Qed.

Lemma conv_gen_some D inds c a b y : orders D -> conv_gen D inds c a b = QOk (Some y) ->
  exists f c', In f inds /\ far_place D f a c c' /\ In y (db_fq D f a c') /\ db_qidx D (q_uuid (cf_ref y)) = b.
Proof.
  intros O. induction inds as [|f inds IH]; cbn [conv_gen]; [discriminate|].
  destruct (find3 D (db_fq D f a) c) as [l|] eqn:F3; [|discriminate].
  destruct (find _ (db_ord D l)) as [x|] eqn:FD.
  - intros [= ->]. apply find_some in FD as [J E]. apply (Permutation_in _ (O l)) in J. destruct (find3_spec D f a c l y F3 J) as (c' & P & Jy).
    exists f, c'. repeat split; auto; [left; reflexivity|]. destruct (eqb_spec (db_qidx D (q_uuid (cf_ref y))) b); [assumption|discriminate].
  - intros E. destruct (IH E) as (f' & c' & J & R). exists f', c'. split; [right; exact J|exact R].
Qed.
Lemma conv_gen_none D inds c a b : orders D -> no_aliases D -> conv_gen D inds c a b = QOk None ->
  forall f c' y, In f inds -> far_place D f a c c' -> In y (db_fq D f a c') -> db_qidx D (q_uuid (cf_ref y)) <> b.
Proof.
  intros O NA. induction inds as [|f inds IH]; cbn [conv_gen]; [intros _ f c' y []|].
  destruct (find3 D (db_fq D f a) c) as [l|] eqn:F3; [|discriminate].
  destruct (find _ (db_ord D l)) as [x|] eqn:FD; [discriminate|]. intros E f' c' y [<-|J] P Jy; [|eapply IH; eauto].
  intros EQ. pose proof (find3_all D f a c l y c' NA F3 P Jy) as Jl. apply (Permutation_in _ (Permutation_sym (O l))) in Jl.
  apply (find_none _ _ FD) in Jl. cbn in Jl. rewrite EQ, eqb_refl in Jl. discriminate.
Qed.
Lemma lookfor_some D inds c a b loc k : orders D -> no_aliases D -> lookfor D inds c a b loc = QOk (Some k) -> db_conv D inds c a b loc k.
Proof.
  intros O NA. unfold lookfor. destruct (conv_gen D inds c a b) as [[y|]|e] eqn:G; [| |discriminate].
  - intros [= <-]. left. apply conv_gen_some in G as (f & c' & J & P & Jy & E); [|exact O]. exists f, c', y. repeat split; auto. apply value_at_cf_at. reflexivity.
  - destruct (conv_gen D inds c b a) as [[y|]|e] eqn:G2; [|discriminate|discriminate].
    destruct (eqb_spec (cf_at loc y) 0) as [|NZ]; [discriminate|]. intros [= <-]. right. split.
    + intros k' (f & c' & y' & J & P & Jy & E & _). exact (conv_gen_none D inds c a b O NA G f c' y' J P Jy E).
    + exists (cf_at loc y). apply conv_gen_some in G2 as (f & c' & J & P & Jy & E); [|exact O]. repeat split; auto.
      exists f, c', y. repeat split; auto. apply value_at_cf_at. reflexivity.
Qed.
Lemma conversion_meets D inds c rq loc f y k : orders D -> no_aliases D -> conversion D inds c rq loc f y k -> factor_conversion D inds c rq loc f y k.
Proof.
  intros O NA [C|[(NE & C)|(NE & N & C)]]; [left; exact C|right; left; split; [exact NE|apply conversion_from_flow_spec; exact C]|].
  right; right. split; [exact NE|]. split; [|apply lookfor_some; assumption]. intros k' H. apply conversion_from_flow_spec in H. congruence.
Qed.

(** * C74 *)

(** A factor is 1 between a quantity and itself, 0 for quelled carbon dioxide, and otherwise the value at the location of a
    factor stored for one of the flow's flowables at the nearest place, converted to the flow's reference quantity. *)
Theorem C74_provenance D q loc quell x x' v : orders D -> no_aliases D -> convert D q loc quell x = (x', QOk (Some v)) ->
  exists r, f_ref (qf_flow x) = Some r /\ let rq := db_qidx D (q_uuid r) in
  (rq = q /\ v = 1) \/
  (rq <> q /\ exists c, qf_comp x = Some c /\
     ((is_quelled D quell x c /\ v = 0) \/
      (~ is_quelled D quell x c /\ exists f c' y k w, In f (qf_inds x) /\ place D f q c c' /\ In y (db_fq D f q c') /\
         factor_conversion D (qf_inds x) c rq loc (qf_flow x) y k /\ value_at loc y w /\ v = w * k))).
Proof.
  intros O NA E. apply provenance_lemma in E as (r & R & H); [|exact O]. exists r. split; [exact R|]. cbn zeta in *.
  destruct H as [H|(NE & c & C & H)]; [left; exact H|]. right. split; [exact NE|]. exists c. split; [exact C|].
  destruct H as [(Qd & V)|(Qd & f & c' & y & k & J & P & Jy & CV & V)].
  - left. split; [apply quelled_spec; exact Qd|exact V].
  - right. split; [intros H; apply quelled_spec in H; congruence|]. exists f, c', y, k, (cf_at loc y). repeat split; auto.
    + apply conversion_meets; assumption.
    + apply value_at_cf_at. reflexivity.
Qed.
Print Assumptions C74_provenance.

(** ** What a query records on the flow *)

Definition found (D : db) (inds : list nat) (c q : nat) (y : cfac) : Prop :=
  exists f c', In f inds /\ place D f q c c' /\ In y (db_fq D f q c').
Definition recorded_conv (D : db) (inds : list nat) (c q rq : nat) (loc : string) (f f' : flow) (u : string) : Prop :=
  exists y k ch', found D inds c q y /\ u = q_uuid (cf_ref y) /\ db_qidx D u <> rq /\ db_conv D inds c (db_qidx D u) rq loc k /\
    dget u (f_chars f') = Some ch' /\
    match dget u (f_chars f) with
    | Some ch => dget loc (c_locs ch) = None /\ c_locs ch' = dset loc (Some k) (c_locs ch)
    | None => c_locs ch' = [(loc, Some k)]
    end.

Lemma add_num_success q k loc f f' : add_characterization q false (VNum k) false (Some loc) None f = (f', None) ->
  f_ref f' = f_ref f /\ f_comp f' = f_comp f /\
  (forall u, u <> q_uuid q -> dget u (f_chars f') = dget u (f_chars f)) /\
  exists ch', dget (q_uuid q) (f_chars f') = Some ch' /\
  match dget (q_uuid q) (f_chars f) with
    | Some ch => dget loc (c_locs ch) = None /\ c_locs ch' = dset loc (Some k) (c_locs ch)
    | None => c_locs ch' = [(loc, Some k)]
    end.
Proof.
  unfold add_characterization, add_value, char_set. cbn [negb].
  destruct (dget (q_uuid q) (f_chars f)) as [c|].
  - destruct (dget loc (c_locs c)) as [[w|]|] eqn:L; [discriminate|discriminate|]. intros [= <-]. cbn. repeat split.
    + intros u N. apply dget_dset_other. congruence.
    + eexists. rewrite dget_dset_same. split; [reflexivity|]. cbn. auto.
  - cbn. intros [= <-]. cbn. repeat split.
    + intros u N. apply dget_dset_other. congruence.
    + eexists. rewrite dget_dset_same. split; [reflexivity|]. reflexivity.
Qed.
Lemma convert_values_records D inds c q rq loc cfs : orders D -> no_aliases D -> (forall y, In y cfs -> found D inds c q y) -> forall f vals bad f' r,
  convert_values D inds c rq loc cfs f vals bad = (f', QOk r) ->
  f_ref f' = f_ref f /\ f_comp f' = f_comp f /\
  forall u, dget u (f_chars f') = dget u (f_chars f) \/ recorded_conv D inds c q rq loc f f' u.
Proof.
  intros O NA. induction cfs as [|y cfs IH]; intros FD f vals bad f' r E; cbn [convert_values] in E; [|specialize (IH (fun z J => FD z (or_intror J)))].
  - assert (f = f') as -> by congruence. auto.
  - destruct (eqb_spec (db_qidx D (q_uuid (cf_ref y))) rq) as [EQ|NE]; [eapply IH; exact E|].
    destruct (conversion_from_flow D f _) as [k|] eqn:CF; [eapply IH; exact E|].
    destruct (lookfor D inds c _ rq loc) as [[k|]|e] eqn:LF; [|eapply IH; exact E|discriminate].
    destruct (add_characterization _ _ _ _ _ _ f) as [f1 [e|]] eqn:AC; [discriminate|].
    apply add_num_success in AC as (R1 & C1 & S1 & ch1 & G1 & V1). apply IH in E as (R2 & C2 & S2).
    split; [congruence|]. split; [congruence|]. intros u. specialize (S2 u).
    destruct (eqb_spec u (q_uuid (cf_ref y))) as [->|NU].
    + right. destruct S2 as [S2|(y2 & k2 & ch2 & F2 & U2 & N2 & D2 & G2 & V2)].
      * exists y, k, ch1. repeat split; auto; [apply FD; left; reflexivity|apply lookfor_some; assumption|congruence].
      * exfalso. rewrite G1 in V2. destruct V2 as [V2 _]. destruct (dget (q_uuid (cf_ref y)) (f_chars f)) as [c0|].
        -- destruct V1 as [_ V1]. rewrite V1, dget_dset_same in V2. discriminate.
        -- rewrite V1 in V2. cbn in V2. rewrite eqb_refl in V2. discriminate.
    + rewrite <- (S1 u NU). destruct S2 as [S2|(y2 & k2 & ch2 & F2 & U2 & N2 & D2 & G2 & V2)]; [left; exact S2|].
      right. exists y2, k2, ch2. rewrite <- (S1 u NU). auto 10.
Qed.

(** A query changes nothing on the flow but this: for a factor whose reference quantity is not that of the flow, the
    conversion found in the database may be recorded, at the location of the query, where nothing was recorded. *)
Theorem C74_records D q loc quell x x' o : orders D -> no_aliases D -> convert D q loc quell x = (x', QOk o) ->
  qf_inds x' = qf_inds x /\ qf_comp x' = qf_comp x /\ qf_bio x' = qf_bio x /\
  f_ref (qf_flow x') = f_ref (qf_flow x) /\ f_comp (qf_flow x') = f_comp (qf_flow x) /\
  forall u, dget u (f_chars (qf_flow x')) = dget u (f_chars (qf_flow x)) \/
    exists c r, qf_comp x = Some c /\ f_ref (qf_flow x) = Some r /\
  recorded_conv D (qf_inds x) c q (db_qidx D (q_uuid r)) loc (qf_flow x) (qf_flow x') u.
Proof.
  intros O NA. unfold convert. destruct (f_ref (qf_flow x)) as [r|] eqn:R; [|intros E; assert (x' = x) as -> by congruence; rewrite R; auto 8].
  destruct (eqb _ q); [intros E; assert (x' = x) as -> by congruence; rewrite R; auto 8|].
  destruct (qf_comp x) as [c|] eqn:C; [|discriminate].
  destruct (quelled D quell x c); [intros E; assert (x' = x) as -> by congruence; rewrite R, C; auto 8|].
  destruct (convert_values D (qf_inds x) c _ loc _ (qf_flow x) [] false) as [f' v] eqn:CV. intros E.
  apply pair_equal_inv in E as [<- E]. cbn. destruct v as [v|e]; [|discriminate].
  apply (convert_values_records D (qf_inds x) c q) in CV as (R' & C' & S); [|assumption|assumption|].
  2:{ intros y J. unfold lookup_cfs in J. apply (Permutation_in _ (O _)) in J. apply fold_union_In in J as [[]|(f & Jf & J)].
      apply (Permutation_in _ (O _)) in J. apply find2_place in J as (c' & P & J). exists f, c'. auto. }
  repeat split; auto; [congruence|]. intros u. destruct (S u) as [S'|S']; [auto|].
  right. exists c, r. auto.
Qed.
Print Assumptions C74_records.

Lemma exdb_no_aliases : no_aliases exdb.
Proof.
  intros f q c c' y y'. unfold exdb; cbn [db_fq]. destruct (f =? 0)%nat, (c =? 1)%nat, (c' =? 1)%nat; cbn [andb]; try (intros []); try (intros _ []).
  destruct (q =? 1)%nat; [intros [<-|[]] [<-|[]]; reflexivity|]. destruct (q =? 2)%nat; [intros [<-|[]] [<-|[]]; reflexivity|].
  destruct (q =? 10)%nat; [intros [<-|[]] [<-|[]]; reflexivity|intros []].
Qed.
Example C74_spec_example : orders exdb /\ no_aliases exdb /\
  (exists x' v, convert exdb 2 "US" None in_m3 = (x', QOk (Some v)) /\ v = Q2Qc 20 /\
     option_map c_locs (dget "kg" (f_chars (qf_flow x'))) = Some [("US", Some (Q2Qc 4))]).
Proof.
  split; [intros l; apply Permutation_refl|]. split; [exact exdb_no_aliases|]. eexists _, _. split; [vm_compute; reflexivity|].
  split; [apply Qc_is_canon; reflexivity|]. vm_compute. reflexivity.
Qed.

(** * C59: refreshing *)

Lemma overwrite_global q v f : exists f' ch, add_characterization q false (VNum v) true None None f = (f', None) /\
  dget (q_uuid q) (f_chars f') = Some ch /\
  forall l, dget l (c_locs ch) = if eqb l "GLO" then Some (Some v)
                                 else match dget (q_uuid q) (f_chars f) with Some c => dget l (c_locs c) | None => None end.
Proof.
  unfold add_characterization, add_value, char_set. cbn [c_locs c_q c_orig].
  destruct (dget (q_uuid q) (f_chars f)) as [c|]; cbn [c_locs c_q c_orig].
  - rewrite dget_ddel, eqb_refl. cbn [c_locs c_q c_orig]. eexists _, _. split; [reflexivity|]. cbn [f_chars]. rewrite dget_dset_same. split; [reflexivity|].
    intros l. cbn [c_locs]. rewrite dget_dset, dget_ddel. destruct (eqb l "GLO"); reflexivity.
  - eexists _, _. split; [reflexivity|]. cbn [f_chars]. rewrite dget_dset_same. split; [reflexivity|].
    intros l. cbn. reflexivity.
Qed.

(** With [refresh], the score is the factor the database gives now, whatever was recorded globally on the flow before, as
    long as the flow has no value of its own at the location. *)
Theorem C59_refresh_partial D q loc quell x x1 v c : orders D -> no_aliases D ->
  loc <> "quantity" -> loc <> "flow" -> qf_comp x = Some c ->
  (forall f s y, In y (db_fq D f (db_qidx D (q_uuid q)) s) -> q_uuid (cf_ref y) <> q_uuid q) ->
  (loc = "GLO" \/ forall ch, dget (q_uuid q) (f_chars (qf_flow x)) = Some ch -> dget loc (c_locs ch) = None) ->
  convert D (db_qidx D (q_uuid q)) loc quell x = (x1, QOk (Some v)) ->
  snd (lcia_flow D q loc quell true x) = QOk (Some (INum v)).
Proof.
  intros O NA L1 L2 C NF OWN E. pose proof (C74_records D _ loc quell x x1 (Some v) O NA E) as (_ & C1 & _ & _ & _ & S).
  assert (SQ : dget (q_uuid q) (f_chars (qf_flow x1)) = dget (q_uuid q) (f_chars (qf_flow x))).
  { destruct (S (q_uuid q)) as [S'|(c' & r & _ & _ & y & k & ch & (f & s & _ & _ & J) & U & _)]; [exact S'|].
    exfalso. exact (NF f s y J (eq_sym U)). }
  unfold lcia_flow. cbn [orb]. rewrite E. destruct (overwrite_global q v (qf_flow x1)) as (f' & ch & AC & G & V). rewrite AC. cbn [snd].
  unfold cf. cbn [qf_flow qf_comp]. rewrite G, C1, C.
  assert (GG : forall l, l <> "quantity" -> l <> "flow" -> (l = "GLO" \/ dget l (c_locs ch) = None) -> char_get l ch = INum v).
  { intros l N1 N2 H. unfold char_get. destruct (eqb_spec l "quantity"); [contradiction|]. destruct (eqb_spec l "flow"); [contradiction|].
    pose proof (V "GLO") as VG. rewrite eqb_refl in VG. destruct H as [->|H]; [rewrite VG; reflexivity|]. rewrite H, VG. destruct (c_locs ch); [discriminate VG|reflexivity]. }
  rewrite (GG "GLO"); [|discriminate|discriminate|left; reflexivity].
  rewrite (GG loc); [reflexivity|exact L1|exact L2|]. destruct (eqb_spec loc "GLO") as [|NG]; [left; assumption|right].
  rewrite V. destruct (eqb_spec loc "GLO"); [contradiction|]. rewrite SQ. destruct (dget (q_uuid q) (f_chars (qf_flow x))) as [c0|] eqn:G0; [|reflexivity].
  destruct OWN as [|OWN]; [contradiction|]. apply OWN. reflexivity.
Qed.

(** Without refreshing, a recorded global value decides, and the database is not asked. *)
Theorem C59_recorded_value_stands D q loc quell x c ch : loc <> "quantity" -> loc <> "flow" -> qf_comp x = Some c ->
  dget (q_uuid q) (f_chars (qf_flow x)) = Some ch -> (exists w, dget "GLO" (c_locs ch) = Some (Some w)) ->
  lcia_flow D q loc quell false x = (x, QOk (Some (match dget loc (c_locs ch) with Some (Some w) => INum w | Some None => INone
    | None => match dget "GLO" (c_locs ch) with Some (Some w) => INum w | _ => INone end end))).
Proof.
  intros L1 L2 C G (w & GL). unfold lcia_flow, has_characterization, cf. rewrite G, C. rewrite eqb_refl. cbn [orb negb].
  replace (char_get "GLO" ch) with (INum w) by (unfold char_get; rewrite GL; reflexivity).
  unfold char_get. destruct (eqb_spec loc "quantity"); [contradiction|]. destruct (eqb_spec loc "flow"); [contradiction|]. rewrite GL.
  destruct (dget loc (c_locs ch)) as [[u|]|]; [reflexivity|reflexivity|]. destruct (c_locs ch); [discriminate|reflexivity].
Qed.

(** A value the flow has of its own at the location is scored instead of the refreshed one. *)
Theorem C59_refresh_refuted : exists x x1,
  convert exdb 1 "US" None x = (x1, QOk (Some (Q2Qc 3))) /\
  snd (lcia_flow exdb gwp "US" None true x) = QOk (Some (INum (Q2Qc 9))).
Proof.
  exists (QFlow [0%nat] (Some 1%nat) false (fst (add_characterization gwp false (VNum (Q2Qc 9)) false (Some "US") None (new_flow (Some kg) true)))).
  eexists. split; vm_compute; reflexivity.
Qed.
Print Assumptions C59_refresh_partial.
Print Assumptions C59_recorded_value_stands.
Print Assumptions C59_refresh_refuted.

Example C59_refresh_example :
  let x := QFlow [0%nat] (Some 1%nat) false (fst (add_characterization gwp false (VNum (Q2Qc 9)) false None None (new_flow (Some kg) true))) in
  (forall f s y, In y (db_fq exdb f (db_qidx exdb (q_uuid gwp)) s) -> q_uuid (cf_ref y) <> q_uuid gwp) /\
  (forall ch, dget (q_uuid gwp) (f_chars (qf_flow x)) = Some ch -> dget "US" (c_locs ch) = None) /\
  (exists x1, convert exdb (db_qidx exdb (q_uuid gwp)) "US" None x = (x1, QOk (Some (Q2Qc 3)))) /\
  snd (lcia_flow exdb gwp "US" None true x) = QOk (Some (INum (Q2Qc 3))) /\
  snd (lcia_flow exdb gwp "US" None false x) = QOk (Some (INum (Q2Qc 9))).
Proof.
  cbn zeta. split.
  { intros f s y. cbn. destruct ((f =? 0)%nat && (s =? 1)%nat)%bool; [|intros []]. intros [<-|[]]. discriminate. }
  split; [intros ch G; vm_compute in G; injection G as <-; reflexivity|].
  split; [eexists; vm_compute; reflexivity|]. split; vm_compute; reflexivity.
Qed.

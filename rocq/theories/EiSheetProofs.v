(** Proofs about the model in EiSheetModel.v. *)
From Coq Require Import String Lia.
From Verif Require Import Base PyStr LowerModel EiLciaProofs EiSheetModel.
Open Scope nat_scope.
Open Scope string_scope.
Open Scope list_scope.
Local Arguments eqb : simpl never.

(** ** Vocabulary *)
(** Some row of the sheets of flows has the key / unit. *)
Definition is_unit (fs : list fargs) (k : string) : Prop := exists f, In f fs /\ fa_unit f = k.
Definition is_key (fs : list fargs) (k : string) : Prop := exists f, In f fs /\ fa_key f = k.
(** The last row with the key that gives the property p gives it the value v. *)
Definition last_states (fs : list fargs) (k p : string) (v : pval) : Prop :=
  exists l1 f l2, fs = l1 ++ f :: l2 /\ fa_key f = k /\ In (p, v) (fa_kw f) /\ forall g, In g l2 -> fa_key g = k -> ~ In p (map fst (fa_kw g)).

(** ** Lists of assignments *)
Fixpoint last_assoc (p : string) (l : list (string * pval)) : option pval :=
  match l with [] => None | (q, v) :: l => match last_assoc p l with Some w => Some w | None => if eqb q p then Some v else None end end.
Lemma last_assoc_app p a b : last_assoc p (a ++ b) = match last_assoc p b with Some v => Some v | None => last_assoc p a end.
Proof. induction a as [|(q, v) a IH]; cbn [app last_assoc]; [destruct (last_assoc p b); reflexivity|]. rewrite IH. destruct (last_assoc p b); reflexivity. Qed.
Lemma last_assoc_none p l : last_assoc p l = None <-> ~ In p (map fst l).
Proof.
  induction l as [|(q, v) l IH]; cbn [last_assoc map fst]; [split; [intros _ []|reflexivity]|]. destruct (last_assoc p l) as [w|].
  - split; [discriminate|]. intros N. exfalso. assert (~ In p (map fst l)) by (intros I; apply N; right; exact I). apply IH in H. discriminate.
  - destruct (eqb_spec q p) as [->|D]; [split; [discriminate|intros N; exfalso; apply N; left; reflexivity]|]. split; [|reflexivity]. intros _ [E|I]; [exact (D E)|]. exact (proj1 IH eq_refl I).
Qed.
Definition dsets (l : list (string * pval)) (s : dict string pval) : dict string pval := fold_left (fun s p => dset (fst p) (snd p) s) l s.
Lemma dsets_get p l : forall s, dget p (dsets l s) = match last_assoc p l with Some v => Some v | None => dget p s end.
Proof.
  induction l as [|(q, v) l IH]; intros s; [reflexivity|]. cbn [dsets fold_left fst snd last_assoc]. change (fold_left _ l ?x) with (dsets l x). rewrite IH.
  destruct (last_assoc p l); [reflexivity|]. rewrite dget_dset, (eqb_sym p). destruct (eqb q p); reflexivity.
Qed.
Lemma dsets_nodup l : forall s, NoDup (dkeys s) -> NoDup (dkeys (dsets l s)).
Proof. induction l as [|(q, v) l IH]; intros s N; [exact N|]. cbn [dsets fold_left]. apply IH, NoDup_dset, N. Qed.
Lemma dsets_self s : NoDup (dkeys s) -> dsets s [] = s.
Proof.
  intros N. assert (H: forall l s0, NoDup (dkeys (s0 ++ l)) -> dsets l s0 = s0 ++ l).
  { induction l as [|(q, v) l IH]; intros s0 M; [cbn; rewrite app_nil_r; reflexivity|]. cbn [dsets fold_left fst snd]. change (fold_left _ l ?x) with (dsets l x).
    assert (E: dset q v s0 = s0 ++ [(q, v)]).
    { assert (NI: ~ In q (dkeys s0)). { unfold dkeys in *. rewrite map_app in M. cbn in M. apply NoDup_remove_2 in M. intros I. apply M, in_or_app. left. exact I. }
      clear -NI. induction s0 as [|(a, b) s0 IH]; [reflexivity|]. cbn in *. destruct (eqb_spec q a) as [->|D]; [exfalso; apply NI; left; reflexivity|]. cbn. f_equal. apply IH. intros I. apply NI. right. exact I. }
    rewrite E, IH; [rewrite <- app_assoc; reflexivity|]. rewrite <- app_assoc. exact M. }
  apply (H s []). exact N.
Qed.

(** ** The properties of a flow: the entries made by item assignment, and those made by [update] beside them *)
Definition wrap (p : string * pval) : string * (kobj * pval) := (fst p, (KPlain (fst p), snd p)).
Definition base_ok (b : ldict pval) (ps : list string) : Prop := (forall h, In h (dkeys b) -> lower h = h) /\ (forall p, In p ps -> lower p <> p).
Lemma dget_app_r {A B} `{EqB A} (k : A) (b : dict A B) s : ~ In k (dkeys b) -> dget k (b ++ s) = dget k s.
Proof. induction b as [|(h, x) b IH]; intros N; [reflexivity|]. cbn in *. destruct (eqb_spec k h) as [->|D]; [exfalso; apply N; left; reflexivity|]. apply IH. intros I. apply N. right. exact I. Qed.
Lemma dget_app_l {A B} `{EqB A} (k : A) (b : dict A B) s : ~ In k (dkeys s) -> dget k (b ++ s) = dget k b.
Proof.
  intros N. induction b as [|(h, x) b IH]; cbn.
  - apply dget_None. exact N.
  - destruct (eqb k h); [reflexivity|exact IH].
Qed.
Lemma dset_app_r {A B} `{EqB A} (k : A) v (b : dict A B) s : ~ In k (dkeys b) -> dset k v (b ++ s) = b ++ dset k v s.
Proof. induction b as [|(h, x) b IH]; intros N; [reflexivity|]. cbn in *. destruct (eqb_spec k h) as [->|D]; [exfalso; apply N; left; reflexivity|]. cbn. f_equal. apply IH. intros I. apply N. right. exact I. Qed.
Lemma dget_wrap k s : dget k (map wrap s) = option_map (fun v => (KPlain k, v)) (dget k s).
Proof. induction s as [|(h, v) s IH]; [reflexivity|]. cbn. destruct (eqb_spec k h) as [->|D]; [reflexivity|exact IH]. Qed.
Lemma dset_wrap k v s : dset k (KPlain k, v) (map wrap s) = map wrap (dset k v s).
Proof. induction s as [|(h, w) s IH]; [reflexivity|]. cbn. destruct (eqb_spec k h) as [->|D]; cbn; [reflexivity|]. f_equal. exact IH. Qed.
Lemma raw_set_beside b s k v : ~ In k (dkeys b) -> raw_set (KPlain k) v (b ++ map wrap s) = b ++ map wrap (dset k v s).
Proof.
  intros N. unfold raw_set. cbn [hkey]. rewrite (dget_app_r k b _ N), dget_wrap. destruct (dget k s) as [w|]; cbn [option_map]; rewrite (dset_app_r k _ b _ N), dset_wrap; reflexivity.
Qed.
Lemma update_beside b l : forall s, (forall p, In p (map fst l) -> ~ In p (dkeys b)) -> update l (b ++ map wrap s) = b ++ map wrap (dsets l s).
Proof.
  induction l as [|(k, v) l IH]; intros s N; [reflexivity|]. unfold update, raw_update. cbn [fold_left fst snd]. rewrite (raw_set_beside b s k v) by (apply N; left; reflexivity).
  change (fold_left _ l ?x) with (update l x). rewrite IH by (intros p I; apply N; right; exact I). reflexivity.
Qed.
Lemma beside b ps p : base_ok b ps -> In p ps -> ~ In p (dkeys b).
Proof. intros (L & U) I J. exact (U p I (L p J)). Qed.

(** ** Rows of the sheets *)
Definition kwords : list string := ["CasNumber"; "Comment"; "Formula"; "Synonyms"].
Definition sheet_row (f : fargs) : Prop := exists internal, (exists r, f = el_args internal r) \/ (exists r, f = im_args internal r).
Lemma sheet_rows_ok internal els ims f : In f (sheet_rows internal els ims) -> sheet_row f.
Proof. intros I. apply in_app_or in I. exists internal. destruct I as [I|I]; apply in_map_iff in I; destruct I as (r & <- & _); [left|right]; exists r; reflexivity. Qed.
(** The entries of a new flow *)
Definition ent (k : string) (v : pval) : string * (kobj * pval) := (lower k, (KKey k, v)).
Definition ents4 (f : fargs) (cas comment : string) (more : list (string * string)) : ldict pval :=
  [ent "Name" (PText (fa_name f)); ent "Comment" (PText comment); ent "Compartment" (PList (fa_comp f)); ent "CasNumber" (PText cas)] ++ map (fun p => ent (fst p) (PText (snd p))) more.
Lemma new_props_rows : (forall r, new_props (el_args true r) = ents4 (el_args true r) (el_cas r) "" [("Formula", el_formula r)]) /\ (forall r, new_props (el_args false r) = ents4 (el_args false r) (el_cas r) "" [("Formula", el_formula r); ("Synonyms", el_syn r)]) /\ (forall r, new_props (im_args true r) = ents4 (im_args true r) "" "" []) /\ (forall r, new_props (im_args false r) = ents4 (im_args false r) (im_cas r) (im_comment r) [("Synonyms", im_syn r)]).
Proof. repeat split; intros r; vm_compute; reflexivity. Qed.
Ltac np := rewrite ?(proj1 new_props_rows), ?(proj1 (proj2 new_props_rows)), ?(proj1 (proj2 (proj2 new_props_rows))), ?(proj2 (proj2 (proj2 new_props_rows))).
Ltac rows H := destruct H as (internal & [(r & ->)|(r & ->)]); destruct internal.
Lemma kw_keys f p : sheet_row f -> In p (map fst (fa_kw f)) -> In p kwords.
Proof. intros H. rows H; cbn; intros I; tauto. Qed.
Lemma kw_first f : sheet_row f -> In "CasNumber" (map fst (fa_kw f)) /\ In "Comment" (map fst (fa_kw f)).
Proof. intros H. rows H; cbn; auto. Qed.
Lemma kw_nodup f : sheet_row f -> NoDup (map fst (fa_kw f)).
Proof. intros H. rows H; cbn; repeat constructor; cbn; intuition discriminate. Qed.
Lemma base_fine f : sheet_row f -> base_ok (new_props f) kwords.
Proof.
  intros H. split.
  - rows H; np; unfold ents4, dkeys; cbn [map app fst snd ent]; intros h I; repeat (destruct I as [<-|I]; [apply lower_idem|]); destruct I.
  - unfold kwords. intros p I. repeat (destruct I as [<-|I]; [vm_compute; discriminate|]); destruct I.
Qed.
Lemma base_read f p v k : sheet_row f -> In (p, v) ([("Name", PText (fa_name f)); ("Compartment", PList (fa_comp f))] ++ fa_kw f) -> lower k = lower p -> read k (new_props f) = Some v.
Proof.
  intros H I E. unfold read, getitem, raw_get. cbn [hkey]. rewrite E. clear E k. rows H; np; cbn [el_args im_args fa_kw fa_name fa_comp app In] in I; repeat (destruct I as [I|I]; [injection I as <- <-; vm_compute; reflexivity|]); destruct I.
Qed.
Lemma base_written f k : sheet_row f -> ~ In k kwords -> written k (new_props f) = if eqb k "Name" then Some (PText (fa_name f)) else if eqb k "Compartment" then Some (PList (fa_comp f)) else None.
Proof.
  intros H N. assert (k <> "CasNumber" /\ k <> "Comment" /\ k <> "Formula" /\ k <> "Synonyms") as (A & B & C & D) by (repeat split; intros ->; apply N; cbn; tauto). clear N.
  destruct (eqb_spec k "Name") as [->|E]; [rows H; np; vm_compute; reflexivity|]. destruct (eqb_spec k "Compartment") as [->|F]; [rows H; np; vm_compute; reflexivity|].
  apply dget_None. rows H; np; unfold items; cbn [ents4 ent map app fst snd fold_left spelling]; rewrite ?In_dkeys_dset; intros I; repeat rewrite In_dkeys_dset in I; cbn in I; intuition congruence.
Qed.
Lemma base_items_keys f p : sheet_row f -> In p (dkeys (items (new_props f))) -> In p ("Name" :: "Compartment" :: map fst (fa_kw f)).
Proof. intros H. rows H; np; unfold items; cbn [ents4 ent map app fst snd fold_left spelling]; intros I; repeat rewrite In_dkeys_dset in I; cbn in I |- *; intuition (subst; auto 10). Qed.

(** *** A flow made by the rows f :: l *)
Definition kws (l : list fargs) : list (string * pval) := flat_map fa_kw l.
Definition props (f : fargs) (l : list fargs) : ldict pval := new_props f ++ map wrap (dsets (kws (f :: l)) []).
Definition oks (l : list fargs) : Prop := forall f, In f l -> sheet_row f.
Lemma kws_keys l p : oks l -> In p (map fst (kws l)) -> In p kwords.
Proof.
  intros O I. unfold kws in I. apply in_map_iff in I. destruct I as (x & <- & I). apply in_flat_map in I. destruct I as (f & J & I). apply (kw_keys f); [exact (O f J)|]. apply in_map, I.
Qed.
Lemma not_base f p : sheet_row f -> In p kwords -> ~ In p (dkeys (new_props f)).
Proof. intros H. exact (beside _ _ p (base_fine f H)). Qed.
Lemma props_new f : sheet_row f -> update (fa_kw f) (new_props f) = props f [].
Proof.
  intros H. unfold props, kws. cbn [flat_map]. rewrite app_nil_r. rewrite <- (update_beside (new_props f) (fa_kw f) []); [cbn [map]; rewrite app_nil_r; reflexivity|].
  intros p I. apply not_base; [exact H|]. exact (kw_keys f p H I).
Qed.
Lemma props_more f l g : sheet_row f -> sheet_row g -> update (fa_kw g) (props f l) = props f (l ++ [g]).
Proof.
  intros H G. unfold props. rewrite update_beside by (intros p I; apply not_base; [exact H|exact (kw_keys g p G I)]). f_equal. f_equal. unfold kws. cbn [flat_map]. rewrite flat_map_app. cbn [flat_map]. rewrite app_nil_r.
  unfold dsets. rewrite !fold_left_app. reflexivity.
Qed.
Lemma shadow_keys l p : oks l -> In p (dkeys (dsets (kws l) [])) -> In p kwords.
Proof.
  intros O I. apply (kws_keys l p O). destruct (last_assoc p (kws l)) as [v|] eqn:E.
  - destruct (in_dec string_dec p (map fst (kws l))) as [J|J]; [exact J|]. apply last_assoc_none in J. congruence.
  - exfalso. pose proof (dsets_get p (kws l) []) as G. rewrite E in G. cbn in G. apply dget_None in G. exact (G I).
Qed.
Lemma props_read f l p v k : oks (f :: l) -> In (p, v) ([("Name", PText (fa_name f)); ("Compartment", PList (fa_comp f))] ++ fa_kw f) -> lower k = lower p -> read k (props f l) = Some v.
Proof.
  intros O I E. assert (H: sheet_row f) by (apply O; left; reflexivity). unfold read, getitem, raw_get, props. cbn [hkey]. rewrite dget_app_l.
  - exact (base_read f p v k H I E).
  - intros J. unfold dkeys in J. rewrite map_map in J. assert (K: In (lower k) kwords) by (apply (shadow_keys (f :: l) (lower k) O); exact J). exact (proj2 (base_fine f H) _ K (lower_idem k)).
Qed.
Lemma items_app b s : items (b ++ map wrap s) = dsets s (items b).
Proof.
  unfold items. rewrite fold_left_app. generalize (fold_left (fun acc p => dset (spelling (fst (snd p))) (snd (snd p)) acc) b []). induction s as [|(k, v) s IH]; intros d; [reflexivity|]. exact (IH _).
Qed.
Lemma last_assoc_dget p s : NoDup (dkeys s) -> last_assoc p s = dget p s.
Proof. intros N. pose proof (dsets_get p s []) as G. rewrite (dsets_self s N) in G. cbn in G. rewrite G. destruct (last_assoc p s); reflexivity. Qed.
Lemma props_written f l k : oks (f :: l) -> written k (props f l) = match last_assoc k (kws (f :: l)) with Some v => Some v | None =>
  if eqb k "Name" then Some (PText (fa_name f)) else if eqb k "Compartment" then Some (PList (fa_comp f)) else None end.
Proof.
  intros O. assert (H: sheet_row f) by (apply O; left; reflexivity). unfold written, props. rewrite items_app, dsets_get.
  rewrite last_assoc_dget by (apply dsets_nodup; constructor). rewrite dsets_get. cbn [dget]. destruct (last_assoc k (kws (f :: l))) as [v|] eqn:E; [reflexivity|].
  destruct (in_dec string_dec k (map fst (fa_kw f))) as [J|J].
  - exfalso. apply last_assoc_none in E. apply E. unfold kws. cbn [flat_map]. rewrite map_app. apply in_or_app. left. exact J.
  - destruct (in_dec string_dec k kwords) as [K|K]; [|exact (base_written f k H K)].
    assert (D: dget k (items (new_props f)) = None).
    { apply dget_None. intros I. apply (base_items_keys f k H) in I. destruct I as [<-|[<-|I]]; [cbn in K; intuition discriminate|cbn in K; intuition discriminate|exact (J I)]. }
    rewrite D. destruct (eqb_spec k "Name") as [->|_]; [cbn in K; intuition discriminate|]. destruct (eqb_spec k "Compartment") as [->|_]; [cbn in K; intuition discriminate|reflexivity].
Qed.

(** *** Writing and reading again *)
Definition lowp (p : string * pval) : string * pval := (lower (fst p), snd p).
Definition sets (l : list (string * pval)) (d : ldict pval) : ldict pval := fold_left (fun d p => setitem (fst p) (snd p) d) l d.
Lemma read_setitem k q v d : read k (setitem q v d) = if eqb (lower k) (lower q) then Some v else read k d.
Proof.
  unfold read, getitem, setitem, raw_get, raw_set. cbn [hkey]. destruct (dget (lower q) d) as [(k0, w)|]; rewrite dget_dset; destruct (eqb (lower k) (lower q)); reflexivity.
Qed.
Lemma read_sets k l : forall d, read k (sets l d) = match last_assoc (lower k) (map lowp l) with Some v => Some v | None => read k d end.
Proof.
  induction l as [|(q, v) l IH]; intros d; [reflexivity|]. cbn [sets fold_left fst snd map lowp last_assoc]. change (fold_left _ l ?x) with (sets l x). rewrite IH.
  destruct (last_assoc _ _); [reflexivity|]. rewrite read_setitem, (eqb_sym (lower k)). destruct (eqb (lower q) (lower k)); reflexivity.
Qed.
Definition pnames : list string := "Name" :: "Compartment" :: kwords.
Lemma pnames_inj p q : In p pnames -> In q pnames -> lower p = lower q -> p = q.
Proof. unfold pnames, kwords. cbn. intros I J E. repeat (destruct I as [<-|I]); try destruct I; repeat (destruct J as [<-|J]); try destruct J; try reflexivity; discriminate E. Qed.
Lemma last_low p l : In p pnames -> (forall q, In q (map fst l) -> In q pnames) -> last_assoc (lower p) (map lowp l) = last_assoc p l.
Proof.
  intros P. induction l as [|(q, v) l IH]; intros L; [reflexivity|]. cbn [map lowp last_assoc fst snd]. rewrite IH by (intros x I; apply L; right; exact I). destruct (last_assoc p l); [reflexivity|].
  assert (Q: In q pnames) by (apply L; left; reflexivity). destruct (eqb_spec (lower q) (lower p)) as [E|N]; destruct (eqb_spec q p) as [E'|N']; try reflexivity; [exfalso; exact (N' (pnames_inj q p Q P E))|subst; contradiction].
Qed.
Lemma props_items_keys f l q : oks (f :: l) -> In q (map fst (items (props f l))) -> In q pnames.
Proof.
  intros O I. unfold pnames. destruct (in_dec string_dec q kwords) as [K|K]; [right; right; exact K|]. assert (W: written q (props f l) <> None) by (intros E; apply dget_None in E; exact (E I)).
  rewrite (props_written f l q O) in W. destruct (last_assoc q (kws (f :: l))) as [v|] eqn:E.
  - exfalso. apply K, (kws_keys (f :: l) q O). destruct (in_dec string_dec q (map fst (kws (f :: l)))) as [J|J]; [exact J|]. apply last_assoc_none in J. congruence.
  - destruct (eqb_spec q "Name") as [->|_]; [left; reflexivity|]. destruct (eqb_spec q "Compartment") as [->|_]; [right; left; reflexivity|]. contradiction.
Qed.
Lemma items_nodup {V} (d : ldict V) : NoDup (dkeys (items d)).
Proof.
  unfold items. assert (H: forall (l : ldict V) (acc : dict string V), NoDup (dkeys acc) -> NoDup (dkeys (fold_left (fun acc p => dset (spelling (fst (snd p))) (snd (snd p)) acc) l acc))).
  { induction l as [|x l IH]; intros acc N; [exact N|]. cbn [fold_left]. apply IH. apply NoDup_dset, N. }
  exact (H d [] (NoDup_nil _)).
Qed.
Lemma props_reread f l p k v : oks (f :: l) -> In p pnames -> written p (props f l) = Some v -> lower k = lower p -> read k (reread (props f l)) = Some v.
Proof.
  intros O P W E. unfold reread. change (fold_left _ ?l ?x) with (sets l x). rewrite read_sets, E, (last_low p _ P (fun q => props_items_keys f l q O)), (last_assoc_dget p _ (items_nodup _)). unfold written in W. rewrite W. reflexivity.
Qed.

(** ** The entities after a history of rows *)
Definition withk (k : string) : list fargs -> list fargs := filter (fun f => eqb (fa_key f) k).
Definition einv (fs hist : list fargs) (e : dict string xent) : Prop := forall k,
  (is_unit fs k -> dget k e = Some XQty) /\
  (~ is_unit fs k -> dget k e = match withk k hist with [] => None | f :: l => Some (XFlow (fa_unit f) (props f l)) end).
Lemma unit_dec fs k : is_unit fs k \/ ~ is_unit fs k.
Proof.
  destruct (in_dec string_dec k (map fa_unit fs)) as [I|N]; [left|right].
  - apply in_map_iff in I. destruct I as (f & E & I). exists f. auto.
  - intros (f & I & E). apply N. rewrite <- E. apply in_map, I.
Qed.
Lemma quantities_get us : forall e k, dget k (fold_left create_quantity us e) = if din k e then dget k e else if mem k us then Some XQty else None.
Proof.
  induction us as [|u us IH]; intros e k; cbn [fold_left].
  - unfold din. cbn. destruct (dget k e); reflexivity.
  - rewrite IH. unfold create_quantity, din. cbn [mem existsb]. destruct (dget u e) as [x|] eqn:E.
    + destruct (dget k e) eqn:K; [reflexivity|]. destruct (eqb_spec k u) as [->|N]; [congruence|]. cbn. reflexivity.
    + rewrite !dget_dset. destruct (eqb_spec k u) as [->|N]; [rewrite E; reflexivity|]. cbn. reflexivity.
Qed.
Lemma units_start fs : einv fs [] (fold_left create_quantity (set_of (map fa_unit fs)) []).
Proof.
  intros k. rewrite quantities_get. cbn [din dget]. split; intros H.
  - destruct (mem k (set_of (map fa_unit fs))) eqn:M; [reflexivity|]. exfalso. apply mem_nIn in M. apply M. apply In_set_of. destruct H as (f & I & <-). apply in_map, I.
  - destruct (mem k (set_of (map fa_unit fs))) eqn:M; [|reflexivity]. exfalso. apply H. apply (proj1 (mem_In _ _)) in M. apply (proj1 (In_set_of _ _)) in M. apply in_map_iff in M. destruct M as (f & E & I). exists f. auto.
Qed.
Lemma units_again fs us hist : forall e, einv fs hist e -> (forall u, In u us -> is_unit fs u) -> fold_left create_quantity us e = e.
Proof.
  induction us as [|u us IH]; intros e I U; [reflexivity|]. cbn [fold_left]. unfold create_quantity at 2. unfold din. rewrite (proj1 (I u) (U u (or_introl eq_refl))). apply (IH e I). intros v J. apply U. right. exact J.
Qed.
Lemma withk_snoc k l f : withk k (l ++ [f]) = withk k l ++ if eqb (fa_key f) k then [f] else [].
Proof. unfold withk. rewrite filter_app. reflexivity. Qed.
Lemma withk_in k l f : In f (withk k l) -> In f l /\ fa_key f = k.
Proof. intros I. apply filter_In in I. destruct I as (I & E). split; [exact I|]. destruct (eqb_spec (fa_key f) k); [assumption|discriminate]. Qed.
Lemma step_flow fs hist e f : oks hist -> sheet_row f -> In f fs -> einv fs hist e -> einv fs (hist ++ [f]) (create_flow e f).
Proof.
  intros O S F I k. assert (U: is_unit fs (fa_unit f)) by (exists f; auto).
  assert (CQ: create_quantity e (fa_unit f) = e) by (unfold create_quantity, din; rewrite (proj1 (I _) U); reflexivity).
  rewrite withk_snoc. unfold create_flow. rewrite CQ. destruct (unit_dec fs (fa_key f)) as [UK|NK].
  - rewrite (proj1 (I _) UK). split; [exact (proj1 (I k))|]. intros N. rewrite (proj2 (I k) N). destruct (eqb_spec (fa_key f) k) as [E|_]; [subst; contradiction|]. rewrite app_nil_r. reflexivity.
  - rewrite (proj2 (I _) NK). destruct (eqb_spec (fa_key f) k) as [<-|D].
    + split; [intros X; contradiction|]. intros _. destruct (withk (fa_key f) hist) as [|g l] eqn:W.
      * rewrite dget_dset_same. cbn [app]. rewrite (props_new f S). reflexivity.
      * rewrite dget_dset_same. cbn [app]. rewrite props_more; [reflexivity| |exact S]. apply O. apply (withk_in (fa_key f)). rewrite W. left. reflexivity.
    + rewrite app_nil_r. assert (X: forall v, dget k (dset (fa_key f) v e) = dget k e) by (intros v; apply dget_dset_other; congruence).
      destruct (withk (fa_key f) hist) as [|g l]; rewrite X; exact (I k).
Qed.
Lemma fold_flows fs l : forall hist e, oks hist -> oks l -> incl l fs -> einv fs hist e -> einv fs (hist ++ l) (fold_left create_flow l e).
Proof.
  induction l as [|f l IH]; intros hist e O L F I; [rewrite app_nil_r; exact I|]. cbn [fold_left]. change (f :: l) with ([f] ++ l). rewrite app_assoc. apply IH.
  - intros g J. apply in_app_or in J. destruct J as [J|[<-|[]]]; [exact (O g J)|apply L; left; reflexivity].
  - intros g J. apply L. right. exact J.
  - intros g J. apply F. right. exact J.
  - apply step_flow; [exact O|apply L; left; reflexivity|apply F; left; reflexivity|exact I].
Qed.
Definition reps (fs : list fargs) (n : nat) : list fargs := concat (repeat fs n).
Lemma reps_in fs n f : In f (reps fs n) -> In f fs.
Proof. intros I. apply in_concat in I. destruct I as (l & J & I). apply repeat_spec in J. subst. exact I. Qed.
Lemma reps_snoc fs n : reps fs n ++ fs = reps fs (S n).
Proof. induction n as [|n IH]; [cbn; rewrite app_nil_r; reflexivity|]. change (reps fs (S n)) with (fs ++ reps fs n). rewrite <- app_assoc, IH. reflexivity. Qed.
Lemma load_flows_first fs : oks fs -> einv fs (reps fs 1) (load_flows fs []).
Proof. intros O. unfold load_flows. rewrite <- (reps_snoc fs 0). apply fold_flows; [intros f []|exact O|apply incl_refl|apply units_start]. Qed.
Lemma load_flows_again fs n e : oks fs -> einv fs (reps fs n) e -> einv fs (reps fs (S n)) (load_flows fs e).
Proof.
  intros O I. unfold load_flows. rewrite (units_again fs _ _ e I).
  - rewrite <- reps_snoc. apply fold_flows; [intros f J; apply O; exact (reps_in _ _ _ J)|exact O|apply incl_refl|exact I].
  - intros u J. apply (proj1 (In_set_of _ _)) in J. apply in_map_iff in J. destruct J as (f & E & J). exists f. auto.
Qed.

(** *** First and last rows of a repeated sheet *)
Lemma withk_app k a b : withk k (a ++ b) = withk k a ++ withk k b.
Proof. apply filter_app. Qed.
Lemma withk_first k fs f : first_with fa_key fs k f -> exists l, withk k fs = f :: l.
Proof.
  intros (l1 & l2 & -> & K & N). exists (withk k l2). rewrite withk_app. assert (E: withk k l1 = []).
  { clear -N. induction l1 as [|g l1 IH]; [reflexivity|]. cbn. destruct (eqb_spec (fa_key g) k) as [E|_]; [exfalso; exact (N g (or_introl eq_refl) E)|]. apply IH. intros y J. apply N. right. exact J. }
  rewrite E. cbn. destruct (eqb_spec (fa_key f) k); [reflexivity|contradiction].
Qed.
Lemma withk_first_reps k fs n f : first_with fa_key fs k f -> exists l, withk k (reps fs (S n)) = f :: l.
Proof. intros F. destruct (withk_first _ _ _ F) as (l & E). change (reps fs (S n)) with (fs ++ reps fs n). rewrite withk_app, E. eexists. reflexivity. Qed.
Lemma kws_app a b : kws (a ++ b) = kws a ++ kws b.
Proof. apply flat_map_app. Qed.
Lemma last_reps p k fs n : last_assoc p (kws (withk k (reps fs (S n)))) = last_assoc p (kws (withk k fs)).
Proof.
  induction n as [|n IH]; [unfold reps; cbn [repeat concat]; rewrite app_nil_r; reflexivity|]. rewrite <- reps_snoc, withk_app, kws_app, last_assoc_app, IH. destruct (last_assoc p (kws (withk k fs))); reflexivity.
Qed.
Lemma last_assoc_in p l v : NoDup (map fst l) -> (last_assoc p l = Some v <-> In (p, v) l).
Proof.
  revert v. induction l as [|(q, w) l IH]; intros v N; cbn [last_assoc]; [split; [discriminate|intros []]|]. cbn [map fst] in N. inversion N as [|? ? NI N']; subst. assert (IH' := fun v => IH v N'). clear IH. destruct (last_assoc p l) as [x|] eqn:L.
  - split; [intros [= ->]; right; apply IH'; reflexivity|]. intros [[= -> ->]|I]; [|apply IH', I]. exfalso. apply NI. apply (in_map fst l (p, x)). apply IH'. reflexivity.
  - destruct (eqb_spec q p) as [->|D]; [split; [intros [= ->]; left; reflexivity|intros [[= ->]|I]; [reflexivity|apply IH' in I; discriminate]]|]. split; [discriminate|]. intros [[= -> _]|I]; [contradiction|apply IH' in I; discriminate].
Qed.
Lemma last_spec fs k p v : oks fs -> (last_assoc p (kws (withk k fs)) = Some v <-> last_states fs k p v).
Proof.
  intros O. induction fs as [|f fs IH]; [split; [discriminate|intros (l1 & x & l2 & E & _); destruct l1; discriminate E]|].
  assert (O': oks fs) by (intros g I; apply O; right; exact I). specialize (IH O'). assert (S: sheet_row f) by (apply O; left; reflexivity).
  change (f :: fs) with ([f] ++ fs) at 1. rewrite withk_app, kws_app, last_assoc_app.
  assert (NN: last_assoc p (kws (withk k fs)) = None <-> forall g, In g fs -> fa_key g = k -> ~ In p (map fst (fa_kw g))).
  { rewrite last_assoc_none. split.
    - intros N g I E J. apply N. apply in_map_iff in J. destruct J as (x & <- & J). apply in_map. unfold kws. apply in_flat_map. exists g. split; [|exact J]. apply filter_In. split; [exact I|]. rewrite E. apply eqb_refl.
    - intros N J. apply in_map_iff in J. destruct J as (x & <- & J). apply in_flat_map in J. destruct J as (g & I & J). apply withk_in in I. destruct I as (I & E). apply (N g I E). apply in_map, J. }
  destruct (last_assoc p (kws (withk k fs))) as [w|] eqn:L.
  - split.
    + intros [= ->]. destruct (proj1 IH eq_refl) as (l1 & g & l2 & -> & R). exists (f :: l1), g, l2. split; [reflexivity|exact R].
    + intros (l1 & g & l2 & E & K & I & N). destruct l1 as [|x l1]; injection E as <- E.
      * subst l2. exfalso. assert (X: Some w = None) by (apply NN; exact N). discriminate X.
      * apply IH. exists l1, g, l2. split; [exact E|]. repeat split; assumption.
  - unfold withk, kws. cbn [filter]. destruct (eqb_spec (fa_key f) k) as [K|K]; cbn [flat_map].
    + rewrite app_nil_r, (last_assoc_in p _ v (kw_nodup f S)). split.
      * intros I. exists [], f, fs. split; [reflexivity|]. repeat split; [exact K|exact I|]. apply NN. reflexivity.
      * intros (l1 & g & l2 & E & K' & I & N). destruct l1 as [|x l1]; injection E as <- E; [exact I|]. exfalso. apply (proj1 NN eq_refl g); [rewrite E; apply in_or_app; right; left; reflexivity|exact K'|]. exact (in_map fst _ _ I).
    + cbn [last_assoc]. split; [discriminate|]. intros (l1 & g & l2 & E & K' & I & N). destruct l1 as [|x l1]; injection E as <- E; [contradiction|].
      exfalso. apply (proj1 NN eq_refl g); [rewrite E; apply in_or_app; right; left; reflexivity|exact K'|]. exact (in_map fst _ _ I).
Qed.

(** ** Processes *)
(** D describes the processes, A gives them exchanges. *)
Definition first_row (D : list acrow) (u : string) (r : acrow) : Prop := exists l1 l2, D = l1 ++ r :: l2 /\ ac_uuid r = Some u /\ forall y, In y l1 -> ac_uuid y <> Some u.
Record process_of (D A : list acrow) (u : string) (p : xproc) : Prop := {
  po_row : first_row D u (xp_row p);
  po_exch : forall x, In x (xp_exch p) <-> exists r, In r A /\ ac_uuid r = Some u /\ ac_prod r = x;
  po_refs : forall x, In x (xp_refs p) <-> exists r, In r A /\ ac_uuid r = Some u /\ ac_prod r = x /\ ac_group r = "ReferenceProduct";
  po_once : NoDup (xp_exch p) /\ NoDup (xp_refs p) }.
Definition processes (D A : list acrow) (P : dict string xproc) : Prop := forall u,
  match dget u P with Some p => process_of D A u p | None => forall r, In r D -> ac_uuid r <> Some u end.
Lemma first_row_snoc D r u x : first_row D u x -> first_row (D ++ [r]) u x.
Proof. intros (l1 & l2 & -> & R). exists l1, (l2 ++ [r]). rewrite <- app_assoc. split; [reflexivity|exact R]. Qed.
Lemma first_row_back D r u x r0 : In r0 D -> ac_uuid r0 = Some u -> first_row (D ++ [r]) u x -> first_row D u x.
Proof.
  intros I E (l1 & l2 & S & K & N). destruct l2 as [|y l2] using rev_ind.
  - apply app_inj_tail in S. destruct S as (-> & ->). exfalso. exact (N r0 I E).
  - clear IHl2. rewrite app_comm_cons, app_assoc in S. apply app_inj_tail in S. destruct S as (-> & _). exists l1, l2. auto.
Qed.
Definition known (e : dict string xent) (r : acrow) : Prop := ac_uuid r <> None /\ dget (ac_prod r) e <> None.
Lemma add_known D A a r : incl A D -> processes D A (x_procs a) -> known (x_ents a) r ->
  exists P, add_activity r a = (XA (x_ents a) P (x_loaded a), None) /\ processes (D ++ [r]) (A ++ [r]) P.
Proof.
  intros AD I (U & G). unfold add_activity. destruct (ac_uuid r) as [u|] eqn:EU; [|contradiction]. destruct (dget (ac_prod r) (x_ents a)) as [x|] eqn:EG; [|contradiction]. eexists. split; [reflexivity|]. clear U G EG x.
  intros v. rewrite dget_dset. destruct (eqb_spec v u) as [->|D1].
  - specialize (I u). destruct (dget u (x_procs a)) as [p|].
    + destruct I as [R E F (N1 & N2)]. split; cbn [xp_row xp_exch xp_refs].
      * apply first_row_snoc, R.
      * intros y. rewrite In_set_add, E. split.
        -- intros [->|(r' & J & X)]; [exists r; split; [apply in_or_app; right; left; reflexivity|auto]|exists r'; split; [apply in_or_app; left; exact J|exact X]].
        -- intros (r' & J & X1 & X2). apply in_app_or in J. destruct J as [J|[<-|[]]]; [right; exists r'; auto|left; auto].
      * intros y. assert (X: (exists r', In r' (A ++ [r]) /\ ac_uuid r' = Some u /\ ac_prod r' = y /\ ac_group r' = "ReferenceProduct") <->
          (y = ac_prod r /\ ac_group r = "ReferenceProduct") \/ exists r', In r' A /\ ac_uuid r' = Some u /\ ac_prod r' = y /\ ac_group r' = "ReferenceProduct").
        { split; [intros (r' & J & X1 & X2 & X3); apply in_app_or in J; destruct J as [J|[<-|[]]]; [right; exists r'; auto|left; auto]|].
          intros [(-> & X)|(r' & J & X)]; [exists r|exists r']; (split; [apply in_or_app|]); auto. right. left. reflexivity. }
        rewrite X, <- F. destruct (eqb_spec (ac_group r) "ReferenceProduct") as [->|N]; [rewrite In_set_add; tauto|tauto].
      * split; [apply NoDup_set_add, N1|]. destruct (eqb _ _); [apply NoDup_set_add, N2|exact N2].
    + split; cbn [xp_row xp_exch xp_refs].
      * exists D, []. split; [reflexivity|]. auto.
      * intros y. rewrite In_set_add. split.
        -- intros [->|[]]. exists r. split; [apply in_or_app; right; left; reflexivity|auto].
        -- intros (r' & J & X1 & X2). apply in_app_or in J. destruct J as [J|[<-|[]]]; [exfalso; exact (I r' (AD r' J) X1)|left; auto].
      * intros y. split.
        -- destruct (eqb_spec (ac_group r) "ReferenceProduct") as [X|N]; [rewrite In_set_add|intros []]. intros [->|[]]. exists r. split; [apply in_or_app; right; left; reflexivity|auto].
        -- intros (r' & J & X1 & X2 & X3). apply in_app_or in J. destruct J as [J|[<-|[]]]; [exfalso; exact (I r' (AD r' J) X1)|]. rewrite X3, eqb_refl. apply In_set_add. left. auto.
      * split; [apply NoDup_set_add; constructor|]. destruct (eqb _ _); [apply NoDup_set_add; constructor|constructor].
  - specialize (I v). destruct (dget v (x_procs a)) as [p|].
    + destruct I as [R E F N]. assert (NR: ac_uuid r <> Some v) by congruence. split; [apply first_row_snoc, R| | |exact N].
      * intros y. rewrite E. split; intros (r' & J & X); exists r'; (split; [|exact X]); [apply in_or_app; left; exact J|]. apply in_app_or in J. destruct J as [J|[<-|[]]]; [exact J|]. destruct X as (X & _). contradiction.
      * intros y. rewrite F. split; intros (r' & J & X); exists r'; (split; [|exact X]); [apply in_or_app; left; exact J|]. apply in_app_or in J. destruct J as [J|[<-|[]]]; [exact J|]. destruct X as (X & _). contradiction.
    + intros r' J. apply in_app_or in J. destruct J as [J|[<-|[]]]; [exact (I r' J)|congruence].
Qed.
Lemma add_all_known l : forall D A a, incl A D -> processes D A (x_procs a) -> (forall r, In r l -> known (x_ents a) r) ->
  forall post, exists P, processes (D ++ l) (A ++ l) P /\ add_activities (l ++ post) a = add_activities post (XA (x_ents a) P (x_loaded a)).
Proof.
  induction l as [|r l IH]; intros D A a AD I K post.
  - exists (x_procs a). rewrite !app_nil_r. split; [exact I|]. destruct a. reflexivity.
  - destruct (add_known D A a r AD I (K r (or_introl eq_refl))) as (P & E & I1). destruct (IH (D ++ [r]) (A ++ [r]) (XA (x_ents a) P (x_loaded a))) with (post := post) as (P' & I2 & E2).
    + intros x J. apply in_app_or in J. apply in_or_app. destruct J as [J|J]; [left; exact (AD x J)|right; exact J].
    + exact I1.
    + intros x J. apply (K x). right. exact J.
    + exists P'. rewrite <- !app_assoc in I2. split; [exact I2|]. cbn [app add_activities]. rewrite E, E2. reflexivity.
Qed.
(** The row without a uuid, or without a flow, ends it. *)
Definition seen (r : acrow) : list acrow := match ac_uuid r with Some _ => [r] | None => [] end.
Lemma add_unknown D A a r : incl A D -> processes D A (x_procs a) -> ~ known (x_ents a) r ->
  exists P, add_activity r a = (XA (x_ents a) P (x_loaded a), Some match ac_uuid r with Some _ => XAttribute | None => XValue end) /\ processes (D ++ seen r) A P.
Proof.
  intros AD I K. unfold add_activity, seen. destruct (ac_uuid r) as [u|] eqn:EU.
  - destruct (dget (ac_prod r) (x_ents a)) as [x|] eqn:EG; [exfalso; apply K; split; congruence|]. eexists. split; [reflexivity|]. intros v. rewrite dget_dset. destruct (eqb_spec v u) as [->|N].
    + pose proof (I u) as Iu. destruct (dget u (x_procs a)) as [p|].
      * destruct Iu as [R E F N]. split; [apply first_row_snoc, R|exact E|exact F|exact N].
      * split; cbn [xp_row xp_exch xp_refs].
        -- exists D, []. split; [reflexivity|]. auto.
        -- intros y. split; [intros []|]. intros (r' & J & X & _). exact (Iu r' (AD r' J) X).
        -- intros y. split; [intros []|]. intros (r' & J & X & _). exact (Iu r' (AD r' J) X).
        -- split; constructor.
    + specialize (I v). destruct (dget v (x_procs a)) as [p|].
      * destruct I as [R E F M]. split; [apply first_row_snoc, R|exact E|exact F|exact M].
      * intros r' J. apply in_app_or in J. destruct J as [J|[<-|[]]]; [exact (I r' J)|congruence].
  - exists (x_procs a). rewrite app_nil_r. split; [destruct a; reflexivity|exact I].
Qed.
(** Rows that have been there before add nothing. *)
Lemma option_eq_dec (o : option string) u : o = Some u \/ o <> Some u.
Proof. destruct o as [v|]; [destruct (string_dec v u); [left; congruence|right; congruence]|right; discriminate]. Qed.
Lemma processes_absorb D A L M P : processes (D ++ L) (A ++ M) P -> (forall r, In r L -> exists r', In r' D /\ ac_uuid r' = ac_uuid r) -> incl M A -> processes D A P.
Proof.
  intros I H N. revert I. induction L as [|r L IH] using rev_ind; [rewrite app_nil_r|]; intros I.
  - intros u. specialize (I u). destruct (dget u P) as [p|]; [|exact I]. destruct I as [R E F X]. split; [exact R| | |exact X].
    + intros x. rewrite E. split; intros (r & J & Y); exists r; (split; [|exact Y]); [apply in_app_or in J; destruct J as [J|J]; [exact J|exact (N r J)]|apply in_or_app; left; exact J].
    + intros x. rewrite F. split; intros (r & J & Y); exists r; (split; [|exact Y]); [apply in_app_or in J; destruct J as [J|J]; [exact J|exact (N r J)]|apply in_or_app; left; exact J].
  - apply IH; [intros x J; apply H; apply in_or_app; left; exact J|]. rewrite app_assoc in I. intros u. specialize (I u). destruct (dget u P) as [p|].
    + destruct I as [R E F X]. split; [|exact E|exact F|exact X]. destruct R as (l1 & l2 & S & K & Q). destruct (H r) as (r' & J & EU); [apply in_or_app; right; left; reflexivity|].
      destruct (option_eq_dec (ac_uuid r) u) as [EQ|NE].
      * apply (first_row_back _ r u _ r'); [apply in_or_app; left; exact J|congruence|]. exists l1, l2. auto.
      * destruct l2 as [|y l2] using rev_ind; [apply app_inj_tail in S; destruct S as (_ & ->); congruence|]. clear IHl2. rewrite app_comm_cons, app_assoc in S. apply app_inj_tail in S. destruct S as (-> & _). exists l1, l2. auto.
    + intros x J. apply I. apply in_or_app. left. exact J.
Qed.

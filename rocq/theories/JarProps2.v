(** C111: an archive that meets the hypotheses, and what is lost otherwise. *)
From Coq Require Import String.
From Verif Require Import Num Base PyStr LowerModel FlowModel ProcModel ProcProofs ProcProps ProcJsonProps JarModel JarProofs JarProps.
Open Scope string_scope.
Open Scope list_scope.

Definition ex_fn (n : nat) : string := match n with 0 => "u-steel" | 1 => "u-coal" | _ => "u-none" end.
Definition ex_qn (n : nat) : string := match n with 0 => "u-mass" | 1 => "u-energy" | _ => "u-none" end.
(** A name-space in which "Mass" leads to the quantity's uuid, a uuid to itself, other texts to some other uuid. *)
Definition ex_kid (s : string) : option string := if eqb s "Mass" then Some "u-mass" else if eqb s "Steel sheet" then Some "u-other" else Some s.

Definition props (l : list (string * pval)) : @ldict pval := fold_left (fun d kv => LowerModel.setitem (fst kv) (snd kv) d) l [].
Definition base (n : string) : list (string * pval) := [("Name", PText n); ("Comment", PText "")].
Definition mass := AQ (Meta "u-mass" (Some "db") (Some "Mass") (props (base "Mass"))) "kg".
Definition energy := AQ (Meta "u-energy" (Some "db") None (props (base "Energy" ++ [("UnitConversion", PDict [("MJ", "1"); ("kWh", "0.278")])]))) "MJ".
Definition fprops (n : string) := base n ++ [("CasNumber", PText "7439-89-6"); ("Compartment", PList ["air"; "urban air"])].
Definition fl (ref : string) (l : list (string * dict string (option Qc))) : flow :=
  Flow (Some (Qty 0 ref)) ((ref, Char (Qty 0 ref) [("GLO", Some (Q2Qc 1))] []) :: map (fun p => (fst p, Char (Qty 0 (fst p)) (snd p) [])) l) true.
Definition steel := AF (Meta "u-steel" (Some "db") None (props (fprops "Steel")))
  (fl "u-mass" [("u-energy", [("US", Some (Q2Qc 3)); ("DE", Some (Q2Qc 4))])]).
Definition coal := AF (Meta "u-coal" (Some "other") None (props (fprops "Coal"))) (fl "u-mass" [("u-energy", [("GLO", Some (Q2Qc 29))])]).
Definition pprops (n : string) := base n ++ [("SpatialScope", PText "DE"); ("TemporalScope", PText "2015"); ("Classifications", PList ["metals"])].
Definition ops : list pop :=
  [PAddExchange 0 Output None (Some (Q2Qc 2)) TNone false; PAddReference 0 Output; PAddExchange 1 Input None (Some (Q2Qc 3)) (TStr "u-mine") false;
   PAllocate (Some 0)].
Definition kg1 (f q : nat) : Qc := Q2Qc 1.
Definition smelter := AP (Meta "u-smelter" (Some "db") None (props (pprops "Smelter"))) (prun kg1 ops).
Definition ex_archive := Archive "db" [mass; energy] [steel; coal] [smelter].

Lemma props_wf l : wf_props (props l).
Proof.
  assert (H : forall d, wf_props d -> wf_props (fold_left (fun d kv => LowerModel.setitem (fst kv) (snd kv) d) l d)).
  { induction l as [|[k v] l IH]; intros d W; [exact W|]. cbn [fold_left]. apply IH. destruct W as [ND W]. unfold LowerModel.setitem, raw_set. cbn [fst snd].
    destruct (dget (hkey (KKey k)) d) as [[k0 v0]|] eqn:D.
    - split; [apply NoDup_dset; exact ND|]. intros h ko w J. apply (In_dget _ _ _ (NoDup_dset _ _ _ ND)) in J. rewrite dget_dset in J.
      destruct (eqb_spec h (hkey (KKey k))) as [->|]; [|eapply W; apply dget_In; exact J].
      injection J as -> ->. destruct (W _ _ _ (dget_In _ _ _ D)) as [s [-> E]]. exists s. auto.
    - split; [apply NoDup_dset; exact ND|]. intros h ko w J. apply (In_dget _ _ _ (NoDup_dset _ _ _ ND)) in J. rewrite dget_dset in J.
      destruct (eqb_spec h (hkey (KKey k))) as [->|]; [|eapply W; apply dget_In; exact J].
      injection J as <- <-. exists k. auto. }
  apply H. split; [constructor|intros h ko v []].
Qed.
Lemma plain_ok m : Forall (fun p => json_value (snd (snd p))) (m_props m) -> forall k v, prop k m = Some v -> json_value v.
Proof.
  intros F k v P. unfold prop, LowerModel.getitem, raw_get in P. destruct (dget (hkey (KKey k)) (m_props m)) as [[ko w]|] eqn:D; [|discriminate].
  injection P as ->. apply dget_In in D. rewrite Forall_forall in F. apply (F _ D).
Qed.
Ltac metas :=
  constructor;
  [ apply props_wf
  | apply plain_ok; repeat constructor
  | let k := fresh in let J := fresh in let J' := fresh in
    intros k J J'; vm_compute in J'; cbn in J; repeat (destruct J as [<-|J]; [repeat (destruct J' as [J'|J']; [discriminate|]); destruct J'|]); destruct J
  | discriminate | discriminate
  | let J := fresh in intros ? ? J; cbn in J; repeat (destruct J as [J|J]; [injection J as <- <-; discriminate|]); destruct J
  | discriminate | reflexivity ].

Example C111_witness : archive_ok ex_fn ex_qn ex_kid ex_archive.
Proof.
  constructor.
  - cbn. repeat constructor; cbn; intuition discriminate.
  - intros q [<-|[<-|[]]]; metas.
  - intros f [<-|[<-|[]]]; (split; [metas|]); constructor; cbn [af_flow steel coal fl f_chars f_ref map fst snd].
    1, 6: cbn; repeat constructor; cbn; intuition discriminate.
    1, 5: intros u c D; apply dget_In in D; destruct D as [D|[D|[]]]; injection D as <- <-; reflexivity.
    1, 4: intros u c D; apply dget_In in D; destruct D as [D|[D|[]]]; injection D as <- <-; split; [reflexivity|discriminate|reflexivity|discriminate].
    1, 3: intros u c D; apply dget_In in D; destruct D as [D|[D|[]]]; injection D as <- <-; cbn [c_locs].
    + right; left; eexists; reflexivity.
    + right; right. split; [repeat constructor; cbn; intuition discriminate|]. split; [reflexivity|cbn; lia].
    + right; left; eexists; reflexivity.
    + right; left; eexists; reflexivity.
    + intros r E. injection E as <-. eexists. split; reflexivity.
    + intros r E. injection E as <-. eexists. split; reflexivity.
  - assert (E : prun kg1 ops = prun (acf ex_fn ex_qn ex_archive) ops).
    { vm_compute. f_equal; try (apply Qc_is_canon; reflexivity). }
    intros p [<-|[]]. split; [metas|]. cbn [ap_proc smelter]. split; [|split; [|split]].
    + intros k J. vm_compute in J. destruct J as [<-|[<-|[]]]; discriminate.
    + intros q J. vm_compute in J. injection J as <-. discriminate.
    + constructor.
      * intros r s J J'. vm_compute in J, J'. destruct J as [<-|[]]. destruct J' as [<-|[]]. reflexivity.
      * intros k e D _. apply dget_In in D. vm_compute in D. destruct D as [D|[D|[]]]; injection D as <- <-; left; discriminate.
      * intros k e r v D _ G. apply dget_In in D. vm_compute in D. destruct D as [D|[D|[]]]; injection D as <- <-; discriminate G.
      * intros q J. vm_compute in J. injection J as <-. rewrite E. vm_compute. apply Qc_is_canon. reflexivity.
    + exists ops. exact E.
Qed.

(** ** What is lost otherwise *)
Definition reload (ar : archive) : jres archive := load_archive ex_fn ex_qn ex_kid "db" (save ex_qn false true true true ar).
Definition one_flow (f : flow) : archive := Archive "db" [mass; energy] [AF (Meta "u-steel" (Some "db") None (props (fprops "Steel"))) f] [].
Definition cf_at (ar : jres archive) (q loc : string) : option item :=
  match ar with JOk a => option_map (fun f => FlowModel.cf (Qty 0 q) loc (af_flow f)) (find_f "u-steel" a) | JErr _ => None end.

(** Whatever the value: a factor known for one location only is read back as the factor of every location. *)
Theorem C111_refuted_one_location : forall v : Qc,
  let ar := one_flow (fl "u-mass" [("u-energy", [("US", Some v)])]) in
  cf_at (JOk ar) "u-energy" "DE" = Some (INum (Q2Qc 0)) /\ cf_at (reload ar) "u-energy" "DE" = Some (INum v).
Proof. intros v. split; reflexivity. Qed.
(** Beside a global factor, those of other locations are not written. *)
Theorem C111_refuted_beside_global : forall v w : Qc,
  let ar := one_flow (fl "u-mass" [("u-energy", [("GLO", Some v); ("US", Some w)])]) in
  cf_at (JOk ar) "u-energy" "US" = Some (INum w) /\ cf_at (reload ar) "u-energy" "US" = Some (INum v).
Proof. intros v w. split; reflexivity. Qed.
(** A factor for a quantity that the archive does not hold is dropped without a message. *)
Theorem C111_refuted_quantity_elsewhere : forall v : Qc,
  let ar := one_flow (fl "u-mass" [("u-price", [("GLO", Some v)])]) in
  cf_at (JOk ar) "u-price" "GLO" = Some (INum v) /\ cf_at (reload ar) "u-price" "GLO" = Some (INum (Q2Qc 0)).
Proof. intros v. split; reflexivity. Qed.
(** If it is the reference quantity, the flow has none afterwards. *)
Theorem C111_refuted_reference_elsewhere :
  let ar := one_flow (fl "u-price" []) in
  exists ar' f, reload ar = JOk ar' /\ find_f "u-steel" ar' = Some f /\ f_ref (af_flow f) = None /\ f_chars (af_flow f) = [].
Proof. eexists. eexists. repeat split; reflexivity. Qed.
(** An external_ref that does not lead to the uuid is replaced by the uuid. *)
Definition with_props (ext : option string) (l : list (string * pval)) : archive :=
  Archive "db" [AQ (Meta "u-mass" (Some "db") ext (props (base "Mass" ++ l))) "kg"] [] [].
Definition reloaded_qty (ar : archive) : option aqty := match reload ar with JOk a => find_q "u-mass" a | JErr _ => None end.
Theorem C111_refuted_external_ref : option_map (fun q => shown_ref (aq_meta q)) (reloaded_qty (with_props (Some "Steel sheet") [])) = Some "u-mass".
Proof. reflexivity. Qed.
(** A property that is None is gone, a set is a list, an entity a dict of three texts, any other object (such as a tuple or
    a date) a text. *)
Theorem C111_refuted_properties :
  option_map (fun q => map (fun k => prop k (aq_meta q)) ["Indicator"; "Synonyms"; "Method"; "Period"])
    (reloaded_qty (with_props None [("Indicator", PNone); ("Synonyms", PSet ["weight"; "mass"]); ("Method", PEntity "db" "m" "quantity"); ("Period", PObj "(2010, 2015)")]))
  = Some [None; Some (PList ["mass"; "weight"]); Some (PDict [("origin", "db"); ("externalId", "m"); ("entity_type", "quantity")]); Some (PText "(2010, 2015)")].
Proof. reflexivity. Qed.
(** A property called 'tags' on any entity makes the file unreadable, as do 'external_ref' and 'entity_type'; spelled with a
    capital, 'Tags' is read back. *)
Theorem C111_refuted_names : forall v : string,
  reload (with_props None [("tags", PText v)]) = JErr JOldJson
  /\ reload (with_props None [("external_ref", PText v)]) = JErr JPropertyExists
  /\ reload (with_props None [("entity_type", PText v)]) = JErr JTypeError
  /\ option_map (fun q => prop "tags" (aq_meta q)) (reloaded_qty (with_props None [("Tags", PText v)])) = Some (Some (PText v)).
Proof. intros v. repeat split; reflexivity. Qed.
(** A process with an exchange whose flow the archive does not hold makes the file unreadable. *)
Theorem C111_refuted_flow_elsewhere : reload (Archive "db" [mass; energy] [steel] [smelter]) = JErr JKeyError.
Proof. vm_compute. reflexivity. Qed.
(** Written without [complete], the file has the references only: the coal input and the energy factors are gone, and the
    reference flow's amount with them. *)
Theorem C111_refuted_incomplete : exists ar' p, load_archive ex_fn ex_qn ex_kid "db" (save ex_qn false false false false ex_archive) = JOk ar'
  /\ find_p "u-smelter" ar' = Some p /\ dkeys (p_exch (ap_proc p)) = [(0, Output, None)] /\ exch_value (ap_proc p) (0, Output, None) = None
  /\ cf_at (JOk ar') "u-energy" "US" = Some (INum (Q2Qc 0)) /\ cf_at (JOk ex_archive) "u-energy" "US" = Some (INum (Q2Qc 3)).
Proof. eexists. eexists. split; [vm_compute; reflexivity|]. split; [reflexivity|]. repeat split; reflexivity. Qed.
Print Assumptions C111_refuted_names.

(** C126: the ecoinvent spreadsheet provider: every flow and activity, each as first described, but written as last described. *)
From Coq Require Import String Lia.
From Verif Require Import Base PyStr LowerModel TraciProofs EiLciaProofs EiSheetModel EiSheetProofs.
Open Scope nat_scope.
Open Scope string_scope.
Open Scope list_scope.
Local Arguments eqb : simpl never.

(** Every activity has a uuid and a product that is a flow (or a unit) of the sheets. *)
Definition fine (fs : list fargs) (r : acrow) : Prop := ac_uuid r <> None /\ (is_unit fs (ac_prod r) \/ is_key fs (ac_prod r)).
Lemma withk_none fs n k : ~ is_key fs k -> withk k (reps fs n) = [].
Proof.
  intros N. destruct (withk k (reps fs n)) as [|f l] eqn:E; [reflexivity|]. exfalso. apply N. destruct (withk_in k (reps fs n) f) as (I & K); [rewrite E; left; reflexivity|]. exists f. split; [exact (reps_in _ _ _ I)|exact K].
Qed.
Lemma key_first fs k : is_key fs k <-> exists f, first_with fa_key fs k f.
Proof.
  rewrite first_with_in. split.
  - intros (f & I & <-). apply in_map, I.
  - intros I. apply in_map_iff in I. destruct I as (f & K & I). exists f. auto.
Qed.
Lemma einv_known fs n e r : einv fs (reps fs (S n)) e -> (known e r <-> fine fs r).
Proof.
  intros I. unfold known, fine. assert (X: dget (ac_prod r) e <> None <-> is_unit fs (ac_prod r) \/ is_key fs (ac_prod r)); [|tauto].
  destruct (unit_dec fs (ac_prod r)) as [U|U]; [rewrite (proj1 (I _) U); split; [auto|discriminate]|]. rewrite (proj2 (I _) U). split.
  - intros H. right. destruct (withk (ac_prod r) (reps fs (S n))) as [|f l] eqn:E; [contradiction|]. destruct (withk_in (ac_prod r) (reps fs (S n)) f) as (J & K); [rewrite E; left; reflexivity|]. exists f. split; [exact (reps_in _ _ _ J)|exact K].
  - intros [H|H]; [contradiction|]. apply key_first in H. destruct H as (f & H). destruct (withk_first_reps _ _ n _ H) as (l & ->). discriminate.
Qed.
Lemma fine_dec fs r : fine fs r \/ ~ fine fs r.
Proof.
  unfold fine. destruct (ac_uuid r) as [u|]; [|right; intros (N & _); contradiction]. destruct (unit_dec fs (ac_prod r)) as [U|U]; [left; split; [discriminate|auto]|].
  destruct (in_dec string_dec (ac_prod r) (map fa_key fs)) as [I|N].
  - left. split; [discriminate|]. right. apply in_map_iff in I. destruct I as (f & E & I). exists f. auto.
  - right. intros (_ & [X|(f & I & E)]); [contradiction|]. apply N. rewrite <- E. apply in_map, I.
Qed.
(** All activities are fine or there is a first that is not. *)
Theorem C126_cases fs acs : (forall r, In r acs -> fine fs r) \/ exists pre r post, acs = pre ++ r :: post /\ (forall r, In r pre -> fine fs r) /\ ~ fine fs r.
Proof.
  induction acs as [|r acs IH]; [left; intros r []|]. destruct (fine_dec fs r) as [F|N].
  - destruct IH as [G|(pre & x & post & -> & G & N)]; [left; intros y [<-|J]; auto|]. right. exists (r :: pre), x, post. split; [reflexivity|]. split; [intros y [<-|J]; auto|exact N].
  - right. exists [], r, acs. split; [reflexivity|]. split; [intros y []|exact N].
Qed.

(** ** What a call of load_all does, whatever was called before *)
Definition flows_ok (fs : list fargs) (n : nat) (e : dict string xent) : Prop := (n = 0 /\ e = []) \/ (n <> 0 /\ einv fs (reps fs n) e).
Lemma flows_step fs n e : oks fs -> flows_ok fs n e -> einv fs (reps fs (S n)) (load_flows fs e).
Proof. intros O [(-> & ->)|(_ & I)]; [exact (load_flows_first fs O)|exact (load_flows_again fs n e O I)]. Qed.
Lemma load_good fs acs n a D A : oks fs -> flows_ok fs n (x_ents a) -> x_loaded a = false -> incl A D -> processes D A (x_procs a) -> (forall r, In r acs -> fine fs r) ->
  exists e P, load fs acs a = (XA e P true, None) /\ einv fs (reps fs (S n)) e /\ processes (D ++ acs) (A ++ acs) P.
Proof.
  intros O F L AD I G. unfold load. rewrite L. pose proof (flows_step fs n _ O F) as E. set (e := load_flows fs (x_ents a)) in *.
  destruct (add_all_known acs D A (XA e (x_procs a) false) AD I) with (post := @nil acrow) as (P & I' & EQ); [intros r J; apply (einv_known fs n e r E), G, J|].
  rewrite app_nil_r in EQ. cbn [x_ents x_loaded] in EQ. exists e, P. rewrite EQ. cbn [add_activities x_ents x_procs]. auto.
Qed.
Lemma load_bad fs pre r post n a D A : oks fs -> flows_ok fs n (x_ents a) -> x_loaded a = false -> incl A D -> processes D A (x_procs a) -> (forall r, In r pre -> fine fs r) -> ~ fine fs r ->
  exists e P, load fs (pre ++ r :: post) a = (XA e P false, Some match ac_uuid r with Some _ => XAttribute | None => XValue end) /\ einv fs (reps fs (S n)) e /\ processes (D ++ pre ++ seen r) (A ++ pre) P.
Proof.
  intros O F L AD I G B. unfold load. rewrite L. pose proof (flows_step fs n _ O F) as E. set (e := load_flows fs (x_ents a)) in *.
  destruct (add_all_known pre D A (XA e (x_procs a) false) AD I) with (post := r :: post) as (P & I' & EQ); [intros x J; apply (einv_known fs n e x E), G, J|].
  cbn [x_ents x_loaded] in EQ. rewrite EQ. cbn [add_activities]. destruct (add_unknown (D ++ pre) (A ++ pre) (XA e P false) r) as (P' & EQ' & I2).
  - intros x J. apply in_app_or in J. apply in_or_app. destruct J as [J|J]; [left; exact (AD x J)|right; exact J].
  - exact I'.
  - intros K. apply B, (einv_known fs n e r E), K.
  - rewrite EQ'. exists e, P'. rewrite app_assoc. auto.
Qed.
Lemma processes_nil : processes [] [] []. Proof. intros u. cbn. intros r []. Qed.
Lemma loads_loaded fs acs n : x_loaded (loads fs acs n) = true -> loads fs acs (S n) = loads fs acs n.
Proof. intros L. cbn [loads]. unfold load. rewrite L. reflexivity. Qed.
Lemma loads_good fs acs n : oks fs -> (forall r, In r acs -> fine fs r) -> loads fs acs (S n) = loads fs acs 1 /\ exists e P, loads fs acs 1 = XA e P true /\ einv fs (reps fs 1) e /\ processes acs acs P.
Proof.
  intros O G. destruct (load_good fs acs 0 xnew [] [] O) as (e & P & E & I & Q); [left; auto|reflexivity|intros x []|exact processes_nil|exact G|].
  assert (E1: loads fs acs 1 = XA e P true) by (cbn [loads]; rewrite E; reflexivity). split; [|exists e, P; auto].
  induction n as [|n IH]; [reflexivity|]. rewrite loads_loaded; [exact IH|]. rewrite IH, E1. reflexivity.
Qed.
Lemma loads_bad fs pre r post n : oks fs -> (forall r, In r pre -> fine fs r) -> ~ fine fs r -> exists e P, loads fs (pre ++ r :: post) (S n) = XA e P false /\ einv fs (reps fs (S n)) e /\ processes (pre ++ seen r) pre P.
Proof.
  intros O G B. induction n as [|n (e & P & E & I & Q)].
  - destruct (load_bad fs pre r post 0 xnew [] [] O) as (e & P & E & I & Q); [left; auto|reflexivity|intros x []|exact processes_nil|exact G|exact B|]. exists e, P. cbn [loads]. rewrite E. auto.
  - destruct (load_bad fs pre r post (S n) (XA e P false) (pre ++ seen r) pre O) as (e' & P' & E' & I' & Q').
    + right. split; [discriminate|exact I].
    + reflexivity.
    + intros x J. apply in_or_app. left. exact J.
    + exact Q.
    + exact G.
    + exact B.
    + exists e', P'. cbn [loads]. cbn [loads] in E. rewrite E, E'. split; [reflexivity|]. split; [exact I'|]. apply (processes_absorb _ _ _ _ _ Q'); [|apply incl_refl]. intros x J. exists x. auto.
Qed.

(** ** Theorems *)
Section Sheets.
Variable internal : bool.
Variable els : list elrow.
Variable ims : list imrow.
Let fs := sheet_rows internal els ims.
Lemma fs_ok : oks fs. Proof. intros f. exact (sheet_rows_ok internal els ims f). Qed.

(** load_all succeeds exactly if all activities are fine; otherwise it fails for ever, for the first that is not. *)
Theorem C126_succeeds acs : snd (load fs acs xnew) = None <-> forall r, In r acs -> fine fs r.
Proof.
  split.
  - intros H. destruct (C126_cases fs acs) as [G|(pre & r & post & -> & G & B)]; [exact G|]. exfalso.
    destruct (load_bad fs pre r post 0 xnew [] [] fs_ok) as (e & P & E & _); [left; auto|reflexivity|intros x []|exact processes_nil|exact G|exact B|]. rewrite E in H. discriminate H.
  - intros G. destruct (load_good fs acs 0 xnew [] [] fs_ok) as (e & P & E & _); [left; auto|reflexivity|intros x []|exact processes_nil|exact G|]. rewrite E. reflexivity.
Qed.
Theorem C126_fails_again pre r post n : (forall r, In r pre -> fine fs r) -> ~ fine fs r ->
  snd (load fs (pre ++ r :: post) (loads fs (pre ++ r :: post) n)) = Some match ac_uuid r with Some _ => XAttribute | None => XValue end.
Proof.
  intros G B. destruct n as [|n].
  - destruct (load_bad fs pre r post 0 xnew [] [] fs_ok) as (e & P & E & _); [left; auto|reflexivity|intros x []|exact processes_nil|exact G|exact B|]. cbn [loads]. rewrite E. reflexivity.
  - destruct (loads_bad fs pre r post n fs_ok G B) as (e & P & E & I & Q).
    destruct (load_bad fs pre r post (S n) (XA e P false) (pre ++ seen r) pre fs_ok) as (e' & P' & E' & _);
      [right; split; [discriminate|exact I]|reflexivity|intros x J; apply in_or_app; left; exact J|exact Q|exact G|exact B|]. rewrite E, E'. reflexivity.
Qed.

Lemma loads_flows acs n : exists m, einv fs (reps fs (S m)) (x_ents (loads fs acs (S n))).
Proof.
  destruct (C126_cases fs acs) as [G|(pre & r & post & -> & G & B)].
  - destruct (loads_good fs acs n fs_ok G) as (-> & e & P & -> & I & _). exists 0. exact I.
  - destruct (loads_bad fs pre r post n fs_ok G B) as (e & P & -> & I & _). exists n. exact I.
Qed.
(** Whether it succeeded or not: the units are quantities ... *)
Theorem C126_units acs n k : dget k (x_ents (loads fs acs (S n))) = Some XQty <-> is_unit fs k.
Proof.
  destruct (loads_flows acs n) as (m & I). split; [|exact (proj1 (I k))]. intros H. destruct (unit_dec fs k) as [U|U]; [exact U|]. rewrite (proj2 (I k) U) in H. destruct (withk k (reps fs (S m))); discriminate.
Qed.
(** ... and there is one flow for each other key, with the unit, name, compartment and properties of the first row, in any spelling.  What is
    written, however, are the properties of the last row that gives them, and these are what is read from the file. *)
Theorem C126_flows acs n k f : ~ is_unit fs k -> first_with fa_key fs k f -> exists d, dget k (x_ents (loads fs acs (S n))) = Some (XFlow (fa_unit f) d) /\
  (forall p v k', In (p, v) ([("Name", PText (fa_name f)); ("Compartment", PList (fa_comp f))] ++ fa_kw f) -> lower k' = lower p -> read k' d = Some v) /\
  (forall p v, written p d = Some v <-> (p = "Name" /\ v = PText (fa_name f)) \/ (p = "Compartment" /\ v = PList (fa_comp f)) \/ last_states fs k p v) /\
  (forall p v k', written p d = Some v -> lower k' = lower p -> read k' (reread d) = Some v).
Proof.
  intros U F. destruct (loads_flows acs n) as (m & I). destruct (withk_first_reps k fs m f F) as (l & W). exists (props f l). rewrite (proj2 (I k) U), W. split; [reflexivity|].
  assert (O: oks (f :: l)). { intros g J. apply fs_ok. rewrite <- W in J. apply withk_in in J. destruct J as (J & _). exact (reps_in _ _ _ J). }
  assert (L: forall p, last_assoc p (kws (f :: l)) = last_assoc p (kws (withk k fs))) by (intros p; rewrite <- W; apply last_reps).
  assert (KN: forall p v, last_assoc p (kws (withk k fs)) = Some v -> In p kwords).
  { intros p v E. apply (kws_keys (withk k fs)); [intros g J; apply fs_ok; apply withk_in in J; apply J|]. destruct (in_dec string_dec p (map fst (kws (withk k fs)))) as [J|J]; [exact J|]. apply last_assoc_none in J. congruence. }
  assert (WR: forall p v, written p (props f l) = Some v <-> (p = "Name" /\ v = PText (fa_name f)) \/ (p = "Compartment" /\ v = PList (fa_comp f)) \/ last_states fs k p v).
  { intros p v. rewrite (props_written f l p O), L, <- (last_spec fs k p v fs_ok). destruct (last_assoc p (kws (withk k fs))) as [w|] eqn:E.
    - pose proof (KN p w E) as K. split; [auto|]. intros [(-> & _)|[(-> & _)|H]]; [cbn in K; intuition discriminate|cbn in K; intuition discriminate|exact H].
    - destruct (eqb_spec p "Name") as [->|N1]; [split; [intros [= <-]; auto|intros [(_ & ->)|[(X & _)|X]]; [reflexivity|discriminate|discriminate]]|].
      destruct (eqb_spec p "Compartment") as [->|N2]; [split; [intros [= <-]; auto|intros [(X & _)|[(_ & ->)|X]]; [discriminate|reflexivity|discriminate]]|]. split; [discriminate|]. intros [(X & _)|[(X & _)|X]]; congruence. }
  split; [|split; [exact WR|]].
  - intros p v k' J E. exact (props_read f l p v k' O J E).
  - intros p v k' E. apply (props_reread f l p k' v O); [|exact E]. apply WR in E. unfold pnames. destruct E as [(-> & _)|[(-> & _)|E]]; [left; reflexivity|right; left; reflexivity|]. right. right. apply (last_spec fs k p v fs_ok) in E. exact (KN p v E).
Qed.
(** In terms of the columns of the sheets: the first row of each elementary flow ... *)
Definition el_text (r : elrow) : string := (el_name r ++ " [" ++ el_comp r ++ ", " ++ el_sub r ++ "]")%string.
Theorem C126_elementary acs n pre r post : els = pre ++ r :: post -> (forall x, In x pre -> el_text x <> el_text r) ->
  (forall x, In x els -> el_unit x <> el_text r) -> (forall x, In x ims -> im_unit x <> el_text r) ->
  exists d, dget (el_text r) (x_ents (loads fs acs (S n))) = Some (XFlow (el_unit r) d) /\
  read "name" d = Some (PText (el_name r)) /\ read "compartment" d = Some (PList [el_comp r; el_sub r]) /\ read "casnumber" d = Some (PText (el_cas r)) /\
  read "formula" d = Some (PText (el_formula r)) /\ (internal = false -> read "synonyms" d = Some (PText (el_syn r))).
Proof.
  intros E F U1 U2. destruct (C126_flows acs n (el_text r) (el_args internal r)) as (d & D & R & _).
  - intros (f & I & K). unfold fs, sheet_rows in I. apply in_app_or in I. destruct I as [I|I]; apply in_map_iff in I; destruct I as (x & <- & I); [exact (U1 x I K)|exact (U2 x I K)].
  - exists (map (el_args internal) pre), (map (el_args internal) post ++ map (im_args internal) ims). split; [|split].
    + unfold fs, sheet_rows. rewrite E, map_app, <- app_assoc. reflexivity.
    + reflexivity.
    + intros y I. apply in_map_iff in I. destruct I as (x & <- & I). exact (F x I).
  - exists d. split; [exact D|]. assert (X: forall p v k', In (p, v) ([("Name", PText (el_name r)); ("Compartment", PList [el_comp r; el_sub r])] ++ fa_kw (el_args internal r)) -> lower k' = lower p -> read k' d = Some v) by exact R. clear R.
    repeat split; [apply (X "Name")|apply (X "Compartment")|apply (X "CasNumber")|apply (X "Formula")|intros ->; apply (X "Synonyms")]; try (vm_compute; reflexivity); try destruct internal; cbn; auto 10.
Qed.
(** ... and of each intermediate flow *)
Theorem C126_intermediate acs n pre r post : ims = pre ++ r :: post -> (forall x, In x pre -> im_name x <> im_name r) -> (forall x, In x els -> el_text x <> im_name r) ->
  (forall x, In x els -> el_unit x <> im_name r) -> (forall x, In x ims -> im_unit x <> im_name r) ->
  exists d, dget (im_name r) (x_ents (loads fs acs (S n))) = Some (XFlow (im_unit r) d) /\
  read "name" d = Some (PText (im_name r)) /\ read "compartment" d = Some (PList ["Intermediate flow"]) /\
  (internal = false -> read "casnumber" d = Some (PText (im_cas r)) /\ read "comment" d = Some (PText (im_comment r)) /\ read "synonyms" d = Some (PText (im_syn r))).
Proof.
  intros E F G U1 U2. destruct (C126_flows acs n (im_name r) (im_args internal r)) as (d & D & R & _).
  - intros (f & I & K). unfold fs, sheet_rows in I. apply in_app_or in I. destruct I as [I|I]; apply in_map_iff in I; destruct I as (x & <- & I); [exact (U1 x I K)|exact (U2 x I K)].
  - exists (map (el_args internal) els ++ map (im_args internal) pre), (map (im_args internal) post). split; [|split].
    + unfold fs, sheet_rows. rewrite E, map_app, <- app_assoc. reflexivity.
    + reflexivity.
    + intros y I. apply in_app_or in I. destruct I as [I|I]; apply in_map_iff in I; destruct I as (x & <- & I); [exact (G x I)|exact (F x I)].
  - exists d. split; [exact D|]. assert (X: forall p v k', In (p, v) ([("Name", PText (im_name r)); ("Compartment", PList ["Intermediate flow"])] ++ fa_kw (im_args internal r)) -> lower k' = lower p -> read k' d = Some v) by exact R. clear R.
    split; [apply (X "Name")|split; [apply (X "Compartment")|intros ->; repeat split; [apply (X "CasNumber")|apply (X "Comment")|apply (X "Synonyms")]]]; try (vm_compute; reflexivity); cbn; auto 10.
Qed.
Theorem C126_no_more acs n k : ~ is_unit fs k -> ~ is_key fs k -> dget k (x_ents (loads fs acs (S n))) = None.
Proof. intros U K. destruct (loads_flows acs n) as (m & I). rewrite (proj2 (I k) U), (withk_none fs (S m) k K). reflexivity. Qed.
(** After success there is one process for each uuid: its first row describes it, its exchanges are the products of all its rows, each once, and its
    references those of the rows marked as reference products. *)
Theorem C126_processes acs n : (forall r, In r acs -> fine fs r) -> processes acs acs (x_procs (loads fs acs (S n))) /\ x_loaded (loads fs acs (S n)) = true.
Proof. intros G. destruct (loads_good fs acs n fs_ok G) as (-> & e & P & -> & _ & Q). auto. Qed.
(** After a failure, at whatever attempt, so it is for the rows before; the row that failed may have left a process without the exchange. *)
Theorem C126_failed pre r post n : (forall r, In r pre -> fine fs r) -> ~ fine fs r ->
  processes (pre ++ seen r) pre (x_procs (loads fs (pre ++ r :: post) (S n))) /\ x_loaded (loads fs (pre ++ r :: post) (S n)) = false.
Proof. intros G B. destruct (loads_bad fs pre r post n fs_ok G B) as (e & P & -> & _ & Q). auto. Qed.
(** The defect in general: where a later row of a flow says something else, the archive reads one thing and writes another. *)
Theorem C126_refuted_written acs n k f p v w : ~ is_unit fs k -> first_with fa_key fs k f -> In (p, v) (fa_kw f) -> last_states fs k p w -> v <> w ->
  exists u d, dget k (x_ents (loads fs acs (S n))) = Some (XFlow u d) /\ read p d = Some v /\ written p d = Some w /\ read p (reread d) = Some w.
Proof.
  intros U F I L N. destruct (C126_flows acs n k f U F) as (d & E & R & W & RR). exists (fa_unit f), d. assert (X: written p d = Some w) by (apply W; auto). split; [exact E|]. split; [apply (R p v p); [right; right; exact I|reflexivity]|].
  split; [exact X|]. exact (RR p w p X eq_refl).
Qed.
End Sheets.
Print Assumptions C126_cases.
Print Assumptions C126_succeeds.
Print Assumptions C126_fails_again.
Print Assumptions C126_units.
Print Assumptions C126_flows.
Print Assumptions C126_elementary.
Print Assumptions C126_intermediate.
Print Assumptions C126_no_more.
Print Assumptions C126_processes.
Print Assumptions C126_failed.
Print Assumptions C126_refuted_written.

(** Different substances or compartments have different keys, if compartments have no brackets and no commas. *)
Fixpoint bracket (s : string) : bool := match s with EmptyString => false | String c s => Ascii.eqb c "[" || bracket s end.
Lemma bracket_app a b : bracket (a ++ b) = bracket a || bracket b.
Proof. induction a as [|c a IH]; [reflexivity|]. cbn. rewrite IH. apply Bool.orb_assoc. Qed.
Lemma cut_inj n : forall n' x x', bracket x = false -> bracket x' = false -> (n ++ String "[" x = n' ++ String "[" x')%string -> n = n' /\ x = x'.
Proof.
  induction n as [|c n IH]; intros [|c' n'] x x' H H' E; cbn in E.
  - injection E as ->. auto.
  - injection E as _ E. exfalso. rewrite E, bracket_app in H. cbn in H. rewrite Bool.orb_true_r in H. discriminate.
  - injection E as _ E. exfalso. rewrite <- E, bracket_app in H'. cbn in H'. rewrite Bool.orb_true_r in H'. discriminate.
  - injection E as -> E. destruct (IH n' x x' H H' E) as (-> & ->). auto.
Qed.
Lemma app_sep a b c : ((a ++ b) ++ c = a ++ b ++ c)%string.
Proof. induction a as [|x a IH]; [reflexivity|]. cbn. f_equal. exact IH. Qed.
Lemma end_inj a : forall b, (a ++ "]" = b ++ "]")%string -> a = b.
Proof. induction a as [|x a IH]; intros [|y b] E; cbn in E; [reflexivity| | |]; injection E as E1 E; [destruct b; discriminate|destruct a; discriminate|f_equal; [exact E1|exact (IH b E)]]. Qed.
Definition plain (r : elrow) : Prop := bracket (el_comp r) = false /\ comma (el_comp r) = false /\ bracket (el_sub r) = false /\ comma (el_sub r) = false.
Theorem C126_keys_partial r r' : plain r -> plain r' -> elementary_key r = elementary_key r' -> el_name r = el_name r' /\ el_comp r = el_comp r' /\ el_sub r = el_sub r'.
Proof.
  intros (A1 & A2 & A3 & A4) (B1 & B2 & B3 & B4) E. unfold elementary_key in E.
  assert (X: forall s, (el_name s ++ " [" ++ el_comp s ++ ", " ++ el_sub s ++ "]")%string = ((el_name s ++ " ") ++ String "[" (el_comp s ++ ", " ++ el_sub s ++ "]"))%string) by (intros s; rewrite app_sep; reflexivity).
  rewrite !X in E. apply cut_inj in E; [|rewrite !bracket_app, A1, A3; reflexivity|rewrite !bracket_app, B1, B3; reflexivity]. destruct E as (E1 & E2).
  apply (key_inj (el_comp r) (el_comp r')) in E2; [|rewrite comma_app, A4; reflexivity|rewrite comma_app, B4; reflexivity]. destruct E2 as (E2 & E3). split; [|split; [exact E2|exact (end_inj _ _ E3)]].
  clear -E1. revert E1. generalize (el_name r), (el_name r'). intros a. induction a as [|x a IH]; intros [|y b] E; cbn in E; [reflexivity| | |]; injection E as E1 E; [destruct b; discriminate|destruct a; discriminate|f_equal; [exact E1|exact (IH b E)]].
Qed.

(** ** Witnesses and what is refuted *)
Definition co2 : elrow := EL "Carbon dioxide" "air" "unspecified" "kg" "000124-38-9" "CO2" "".
Definition steel : imrow := IM "steel" "kg" "" "rolled" "".
Definition steel2 : imrow := IM "steel" "kg" "007439-89-6" "cast" "".
Definition power : imrow := IM "electricity" "kWh" "" "" "".
Definition u1 : string := "11111111-1111-3111-8111-111111111111".
Definition u2 : string := "22222222-2222-3222-8222-222222222222".
Definition act (u p g : string) : acrow := AC (Some u) [("activityName", "rolling mill"); ("geography", "CH")] p g.
Definition acts : list acrow := [act u1 "steel" "ReferenceProduct"; act u1 "electricity" "ByProduct"; act u2 "electricity" "ReferenceProduct"].
Definition sheets := sheet_rows false [co2] [steel; power; steel2].
Theorem C126_witness : (forall r, In r acts -> fine sheets r) /\ ~ is_unit sheets "steel" /\ first_with fa_key sheets "steel" (im_args false steel) /\
  last_states sheets "steel" "CasNumber" (PText "007439-89-6") /\ plain co2 /\
  dget u1 (x_procs (loads sheets acts 1)) = Some (XP (act u1 "steel" "ReferenceProduct") ["steel"; "electricity"] ["steel"]).
Proof.
  split; [|split; [|split; [|split; [|split]]]].
  - intros r I. cbn in I. destruct I as [<-|[<-|[<-|[]]]]; (split; [discriminate|right]); [exists (im_args false steel)|exists (im_args false power)|exists (im_args false power)]; (split; [|reflexivity]); cbn; auto.
  - intros (f & I & E). cbn in I. destruct I as [<-|[<-|[<-|[<-|[]]]]]; discriminate E.
  - exists [el_args false co2], [im_args false power; im_args false steel2]. split; [reflexivity|]. split; [reflexivity|]. intros y [<-|[]]. discriminate.
  - exists [el_args false co2; im_args false steel; im_args false power], (im_args false steel2), []. repeat split; [cbn; auto|intros g []].
  - repeat split.
  - vm_compute. reflexivity.
Qed.
(** The CAS number and the comment of steel: the archive has those of the first row, its file those of the second. *)
Theorem C126_refuted_written_example : exists d, dget "steel" (x_ents (loads sheets acts 1)) = Some (XFlow "kg" d) /\
  read "CasNumber" d = Some (PText "") /\ written "CasNumber" d = Some (PText "007439-89-6") /\ read "Comment" d = Some (PText "rolled") /\ read "comment" (reread d) = Some (PText "cast").
Proof. eexists. split; [vm_compute; reflexivity|]. vm_compute. auto. Qed.
(** A product that is missing from the sheet of flows ends the import for ever, with a process that has no exchange; what comes after is lost. *)
Theorem C126_refuted_missing : let acs := [act u1 "copper" "ReferenceProduct"; act u2 "electricity" "ReferenceProduct"] in forall n,
  snd (load sheets acs (loads sheets acs n)) = Some XAttribute /\ dget u2 (x_procs (loads sheets acs n)) = None /\
  (n <> 0 -> dget u1 (x_procs (loads sheets acs n)) = Some (XP (act u1 "copper" "ReferenceProduct") [] [])).
Proof.
  intros acs n. assert (B: ~ fine sheets (act u1 "copper" "ReferenceProduct")).
  { intros (_ & [(f & I & E)|(f & I & E)]); cbn in I; (destruct I as [<-|[<-|[<-|[<-|[]]]]]; discriminate E). }
  split; [exact (C126_fails_again false [co2] [steel; power; steel2] [] _ [act u2 "electricity" "ReferenceProduct"] n (fun r (J : In r []) => match J with end) B)|].
  destruct n as [|n]; [split; [reflexivity|intros N; contradiction]|].
  destruct (C126_failed false [co2] [steel; power; steel2] [] _ [act u2 "electricity" "ReferenceProduct"] n (fun r (J : In r []) => match J with end) B) as (P & _). cbn [app] in P. fold acs in P. change (sheet_rows false [co2] [steel; power; steel2]) with sheets in P. split.
  - specialize (P u2). destruct (dget u2 (x_procs (loads sheets acs (S n)))) as [p|]; [|reflexivity]. exfalso. destruct (po_row _ _ _ _ P) as (l1 & l2 & E & K & _). destruct l1 as [|x [|y l1]]; cbn in E; [injection E as E _; rewrite <- E in K; discriminate K|discriminate E|discriminate E].
  - intros _. specialize (P u1). destruct (dget u1 (x_procs (loads sheets acs (S n)))) as [p|].
    + destruct p as [row ex rf]. destruct P as [(l1 & l2 & E & K & _) X Y _]. cbn [xp_row xp_exch xp_refs] in *. f_equal. f_equal.
      * destruct l1 as [|x [|y l1]]; cbn in E; [injection E as E _; symmetry; exact E|discriminate E|discriminate E].
      * destruct ex as [|x ex]; [reflexivity|]. destruct (proj1 (X x) (or_introl eq_refl)) as (r & [] & _).
      * destruct rf as [|x rf]; [reflexivity|]. destruct (proj1 (Y x) (or_introl eq_refl)) as (r & [] & _).
    + exfalso. exact (P _ (or_introl eq_refl) eq_refl).
Qed.
(** A product named like a unit is taken for the quantity of that unit: the process has an exchange that is no flow. *)
Theorem C126_refuted_unit : let fs := sheet_rows false [] [IM "Item(s)" "Item(s)" "" "" ""] in let acs := [act u1 "Item(s)" "ReferenceProduct"] in
  snd (load fs acs xnew) = None /\ dget "Item(s)" (x_ents (loads fs acs 1)) = Some XQty /\ dget u1 (x_procs (loads fs acs 1)) = Some (XP (act u1 "Item(s)" "ReferenceProduct") ["Item(s)"] ["Item(s)"]).
Proof. vm_compute. auto. Qed.
(** A second unit for the same name is dropped, not converted. *)
Theorem C126_refuted_units : let fs := sheet_rows false [] [IM "wood" "m3" "" "" ""; IM "wood" "kg" "" "" ""] in exists d, dget "wood" (x_ents (loads fs [] 1)) = Some (XFlow "m3" d) /\ dget "kg" (x_ents (loads fs [] 1)) = Some XQty.
Proof. eexists. split; vm_compute; reflexivity. Qed.
(** With commas in compartments, different flows have one key: the second is lost. *)
Theorem C126_refuted_keys : let r := EL "Heat" "air, indoor" "low" "MJ" "" "" "" in let r' := EL "Heat" "air" "indoor, low" "MJ" "" "" "" in
  elementary_key r = elementary_key r' /\ (el_comp r, el_sub r) <> (el_comp r', el_sub r').
Proof. split; [reflexivity|discriminate]. Qed.
Print Assumptions C126_keys_partial.
Print Assumptions C126_witness.
Print Assumptions C126_refuted_written_example.
Print Assumptions C126_refuted_missing.
Print Assumptions C126_refuted_unit.
Print Assumptions C126_refuted_units.
Print Assumptions C126_refuted_keys.

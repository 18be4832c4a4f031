(** C59, C74: the quantity database. *)
From Verif Require Import Num Base PyStr FlowModel FlowProps FlowProps2 QdbModel.
Open Scope Qc_scope.
Open Scope string_scope.
Open Scope list_scope.
Local Arguments eqb : simpl never.

(** * C59: LCIA results do not depend on earlier queries *)

(** A flow that needs no conversion between reference quantities: every factor found for it is per unit of its own
    reference quantity (or it has no reference quantity, or no compartment). *)
Definition simple (D : db) (x : qflow) : Prop :=
  forall r c q y, f_ref (qf_flow x) = Some r -> qf_comp x = Some c -> db_qidx D (q_uuid r) <> q -> In y (lookup_cfs D (qf_inds x) c q) ->
    db_qidx D (q_uuid (cf_ref y)) = db_qidx D (q_uuid r).

Lemma convert_values_simple D inds c rq loc cfs f : (forall y, In y cfs -> db_qidx D (q_uuid (cf_ref y)) = rq) ->
  forall vals, convert_values D inds c rq loc cfs f vals false = (f, QOk (vals ++ map (cf_at loc) cfs)).
Proof.
  induction cfs as [|y cfs IH]; intros H vals; cbn [convert_values map].
  - rewrite app_nil_r. destruct vals; reflexivity.
  - rewrite (H y) by (left; reflexivity). rewrite eqb_refl, IH; [rewrite <- app_assoc; reflexivity|]. intros z J. apply H. right; exact J.
Qed.

(** The factor a simple flow gets: a function of the database and of what does not change. *)
Definition plain_factor (D : db) (q : nat) (loc : string) (quell : option bool) (x : qflow) : qres (option Qc) :=
  match f_ref (qf_flow x) with
  | None => QOk None
  | Some r => if eqb (db_qidx D (q_uuid r)) q then QOk (Some 1)
              else match qf_comp x with
                   | None => QErr QMissingCompartment
                   | Some c => if quelled D quell x c then QOk (Some 0)
                               else QOk (match lookup_cfs D (qf_inds x) c q with [] => None | y :: _ => Some (cf_at loc y) end)
                   end
  end.
Lemma convert_simple D q loc quell x : simple D x -> convert D q loc quell x = (x, plain_factor D q loc quell x).
Proof.
  intros S. unfold convert, plain_factor. destruct x as [inds comp bio f]. cbn [qf_flow qf_comp qf_inds qf_bio] in *.
  destruct (f_ref f) as [r|] eqn:R; [|reflexivity]. destruct (eqb_spec (db_qidx D (q_uuid r)) q) as [|NQ]; [reflexivity|].
  destruct comp as [c|]; [|reflexivity]. destruct (quelled _ _ _ _); [reflexivity|].
  rewrite convert_values_simple; [|intros y J; eapply S; cbn; eauto]. cbn [app].
  destruct (lookup_cfs D inds c q) as [|y l]; reflexivity.
Qed.

(** What a query of [q] leaves for [q] on a flow that had nothing for it. *)
Definition left_by (D : db) (q : qty) (loc : string) (quell : option bool) (x : qflow) : option (dict string (option Qc)) :=
  match plain_factor D (db_qidx D (q_uuid q)) loc quell x with
  | QOk (Some v) => Some [("GLO", Some v)]
  | QOk None => Some []
  | QErr _ => None
  end.
Definition locs_at (u : string) (x : qflow) : option (dict string (option Qc)) := option_map c_locs (dget u (f_chars (qf_flow x))).

(** [x] is [x0] after queries. *)
Definition sim (D : db) (loc : string) (quell : option bool) (x0 x : qflow) : Prop :=
  qf_inds x = qf_inds x0 /\ qf_comp x = qf_comp x0 /\ qf_bio x = qf_bio x0 /\ f_ref (qf_flow x) = f_ref (qf_flow x0) /\
  forall u, locs_at u x = locs_at u x0 \/
            (locs_at u x0 = None /\ exists q, q_uuid q = u /\ locs_at u x = left_by D q loc quell x0).

Lemma sim_refl D loc quell x : sim D loc quell x x.
Proof. repeat split; auto. Qed.
Lemma sim_simple D loc quell x0 x : sim D loc quell x0 x -> simple D x0 -> simple D x.
Proof. intros (I & C & B & R & _) S r c q y. rewrite I, C, R. apply S. Qed.
Lemma sim_plain D loc quell x0 x q l : sim D loc quell x0 x -> plain_factor D q l quell x = plain_factor D q l quell x0.
Proof. intros (I & C & B & R & _). unfold plain_factor, quelled. rewrite I, C, B, R. reflexivity. Qed.

(** The outcome of a query, from what the flow has for the quantity. *)
Definition outcome (q : qty) (loc : string) (comp : option nat) (l : option (dict string (option Qc))) : qres (option item) :=
  match l with
  | None => QOk None
  | Some d => match char_get "GLO" (Char q d []) with
              | INone => QOk None
              | _ => match comp with None => QErr QMissingCompartment | Some _ => QOk (Some (char_get loc (Char q d []))) end
              end
  end.
Lemma char_get_locs loc c q : char_get loc c = char_get loc (Char q (c_locs c) []).
Proof. reflexivity. Qed.

Lemma lcia_flow_spec D q loc quell x : simple D x ->
  (locs_at (q_uuid q) x <> None ->
     lcia_flow D q loc quell false x = (x, outcome q loc (qf_comp x) (locs_at (q_uuid q) x))) /\
  (locs_at (q_uuid q) x = None ->
     snd (lcia_flow D q loc quell false x) = outcome q loc (qf_comp x) (left_by D q loc quell x) /\
     let x' := fst (lcia_flow D q loc quell false x) in
     qf_inds x' = qf_inds x /\ qf_comp x' = qf_comp x /\ qf_bio x' = qf_bio x /\ f_ref (qf_flow x') = f_ref (qf_flow x) /\
     forall u, locs_at u x' = if eqb u (q_uuid q) then left_by D q loc quell x else locs_at u x).
Proof.
  intros S. unfold lcia_flow, has_characterization. cbn [orb]. rewrite (convert_simple _ _ _ _ _ S). unfold left_by, locs_at.
  destruct x as [inds comp bio [ref chars fc]]. cbn [qf_flow qf_inds qf_comp qf_bio f_chars f_ref f_comp] in *. split.
  - destruct (dget (q_uuid q) chars) as [c|] eqn:DC; [|intros X; exfalso; apply X; reflexivity]. intros _. change (eqb "GLO" "GLO") with true. cbn [negb option_map outcome].
    f_equal. unfold cf. cbn [f_chars]. rewrite DC. rewrite (char_get_locs "GLO" c q), (char_get_locs loc c q). reflexivity.
  - destruct (dget (q_uuid q) chars) as [c|] eqn:DC; [discriminate|]. intros _. cbn [negb].
    destruct (plain_factor D (db_qidx D (q_uuid q)) loc quell _) as [[v|]|e] eqn:PF.
    + unfold add_characterization. cbn [f_chars f_ref f_comp]. rewrite DC. cbn [add_value]. unfold add_value, char_set, new_char. cbn.
      unfold cf. cbn [f_chars]. rewrite dget_dset_same. repeat split. intros u. rewrite dget_dset. destruct (eqb u (q_uuid q)); reflexivity.
    + unfold add_characterization. cbn [f_chars f_ref f_comp]. rewrite DC. cbn. unfold cf. cbn [f_chars]. rewrite dget_dset_same. repeat split.
      intros u. rewrite dget_dset. destruct (eqb u (q_uuid q)); reflexivity.
    + assert (e = QMissingCompartment).
      { unfold plain_factor in PF. cbn in PF. destruct ref; [|discriminate]. destruct (eqb _ _); [discriminate|]. destruct comp; [|congruence].
        destruct (quelled _ _ _ _); discriminate. }
      subst e. cbn. repeat split. intros u. destruct (eqb_spec u (q_uuid q)) as [->|]; [rewrite DC|]; reflexivity.
Qed.

Lemma left_by_sim D q q' loc quell x0 x : sim D loc quell x0 x -> q_uuid q = q_uuid q' -> left_by D q loc quell x = left_by D q' loc quell x0.
Proof. intros S E. unfold left_by. rewrite E, (sim_plain _ _ _ _ _ _ _ S). reflexivity. Qed.

(** One query on a flow that has been queried before. *)
Lemma lcia_flow_sim D q loc quell x0 x : simple D x0 -> sim D loc quell x0 x ->
  snd (lcia_flow D q loc quell false x) = snd (lcia_flow D q loc quell false x0) /\
  sim D loc quell x0 (fst (lcia_flow D q loc quell false x)).
Proof.
  intros S0 SM. pose proof (sim_simple _ _ _ _ _ SM S0) as S. pose proof SM as (I & C & B & R & L).
  destruct (lcia_flow_spec D q loc quell x S) as [P1 P2]. destruct (lcia_flow_spec D q loc quell x0 S0) as [Q1 Q2].
  destruct (L (q_uuid q)) as [E|(N0 & q' & U & E)].
  - destruct (locs_at (q_uuid q) x0) as [d|] eqn:L0.
    + rewrite P1, Q1 by congruence. cbn [fst snd]. rewrite E, C. split; [reflexivity|exact SM].
    + destruct P2 as (P2 & I' & C' & B' & R' & L'); [exact E|]. destruct Q2 as (Q2 & _); [reflexivity|].
      rewrite P2, Q2, C, (left_by_sim D q q loc quell x0 x SM eq_refl). split; [reflexivity|].
      split; [congruence|]. split; [congruence|]. split; [congruence|]. split; [congruence|].
      intros u. rewrite L'. destruct (eqb_spec u (q_uuid q)) as [->|]; [|apply L]. right. split; [exact L0|].
      exists q. split; [reflexivity|]. apply left_by_sim; auto.
  - destruct Q2 as (Q2 & _); [exact N0|]. rewrite Q2. destruct (locs_at (q_uuid q) x) as [d|] eqn:LX.
    + rewrite P1 by congruence. cbn [fst snd]. split; [|exact SM]. rewrite C, E. f_equal. unfold left_by. rewrite U. reflexivity.
    + destruct P2 as (P2 & I' & C' & B' & R' & L'); [reflexivity|].
      rewrite P2, C, (left_by_sim D q q loc quell x0 x SM eq_refl). split; [reflexivity|].
      split; [congruence|]. split; [congruence|]. split; [congruence|]. split; [congruence|].
      intros u. rewrite L'. destruct (eqb_spec u (q_uuid q)) as [->|]; [|apply L]. right. split; [exact N0|].
      exists q. split; [reflexivity|]. apply left_by_sim; auto.
Qed.

Definition sim_state (D : db) (loc : string) (quell : option bool) (s0 s : qstate) : Prop :=
  forall i, match dget i s0, dget i s with
            | Some x0, Some x => sim D loc quell x0 x
            | None, None => True
            | _, _ => False
            end.
Lemma sim_state_set D loc quell s0 s i x0 x : sim_state D loc quell s0 s -> dget i s0 = Some x0 -> sim D loc quell x0 x ->
  sim_state D loc quell s0 (dset i x s).
Proof.
  intros H E S j. specialize (H j). rewrite dget_dset. destruct (eqb_spec j i) as [->|]; [|exact H]. rewrite E. exact S.
Qed.
Lemma do_lcia_sim D q loc quell inv : forall s0 s s0', (forall i x, dget i s0 = Some x -> simple D x) ->
  sim_state D loc quell s0 s -> sim_state D loc quell s0 s0' ->
  snd (do_lcia D q loc quell false inv s) = snd (do_lcia D q loc quell false inv s0') /\
  sim_state D loc quell s0 (fst (do_lcia D q loc quell false inv s)).
Proof.
  induction inv as [|i inv IH]; intros s0 s s0' S H H'; cbn [do_lcia]; [split; [reflexivity|exact H]|].
  pose proof (H i) as Hi. pose proof (H' i) as Hi'.
  destruct (dget i s0) as [x0|] eqn:E0; destruct (dget i s) as [x|] eqn:E; try contradiction; destruct (dget i s0') as [x'|] eqn:E'; try contradiction;
    [|apply IH; auto].
  specialize (S i x0 E0) as Sx.
  destruct (lcia_flow_sim D q loc quell x0 x Sx Hi) as [A B]. destruct (lcia_flow_sim D q loc quell x0 x' Sx Hi') as [A' B'].
  rewrite <- A' in A. clear A'. destruct (lcia_flow D q loc quell false x) as [y o]. destruct (lcia_flow D q loc quell false x') as [y' o'].
  cbn [fst snd] in *. subst o'.
  assert (HS : sim_state D loc quell s0 (dset i y s)) by (eapply sim_state_set; eauto).
  destruct o as [o|e]; [|split; [reflexivity|exact HS]].
  assert (HS' : sim_state D loc quell s0 (dset i y' s0')) by (eapply sim_state_set; eauto).
  destruct (IH s0 (dset i y s) (dset i y' s0') S HS HS') as [A2 B2].
  destruct (do_lcia D q loc quell false inv (dset i y s)) as [t [l|e]]; destruct (do_lcia D q loc quell false inv (dset i y' s0')) as [t' [l'|e']];
    cbn [fst snd] in *; try discriminate A2; (split; [|exact B2]); [injection A2 as ->|injection A2 as ->]; reflexivity.
Qed.

(** Whatever was queried before (same locale and setting of the CO2 switch, no refresh), a query answers as it would have
    at the start. *)
Theorem C59_history_independent_partial D loc quell (s0 : qstate) (history : list (qty * list nat)) q inv :
  (forall i x, dget i s0 = Some x -> simple D x) ->
  let s := fold_left (fun s h => fst (do_lcia D (fst h) loc quell false (snd h) s)) history s0 in
  snd (do_lcia D q loc quell false inv s) = snd (do_lcia D q loc quell false inv s0).
Proof.
  intros S s. assert (R0 : sim_state D loc quell s0 s0) by (intros i; destruct (dget i s0); [apply sim_refl|exact I]).
  assert (R : sim_state D loc quell s0 s).
  { subst s. assert (G : forall s, sim_state D loc quell s0 s -> sim_state D loc quell s0 (fold_left (fun s h => fst (do_lcia D (fst h) loc quell false (snd h) s)) history s)); [|apply G; exact R0].
    induction history as [|[q' inv'] r IH]; intros s H; [exact H|]. cbn [fold_left fst snd]. apply IH.
    apply (do_lcia_sim D q' loc quell inv' s0 s s0 S H R0). }
  apply (do_lcia_sim D q loc quell inv s0 s s0 S R R0).
Qed.
Print Assumptions C59_history_independent_partial.

(** A database with one flowable in compartment 1 under root 0: quantity "gwp" (index 1) per kg (index 10) with different
    values by location, "odp" (2) per m3 (11), and a conversion: mass (10) per m3. *)
Definition kg := Qty 100 "kg".
Definition m3 := Qty 101 "m3".
Definition gwp := Qty 102 "gwp".
Definition odp := Qty 103 "odp".
Definition exdb : db :=
  DB (fun f q c => if (f =? 0)%nat && (c =? 1)%nat then
        (if (q =? 1)%nat then [CFac "a" kg [("GLO", Q2Qc 2); ("US", Q2Qc 3)]]
         else if (q =? 2)%nat then [CFac "b" kg [("GLO", Q2Qc 7); ("US", Q2Qc 5)]]
         else if (q =? 10)%nat then [CFac "c" m3 [("GLO", Q2Qc 4)]] else []) else [])
     (fun c => if (c =? 1)%nat then Some 0%nat else None) (fun c => if (c =? 0)%nat then [1%nat] else []) (fun c => [])
     (fun u => if eqb u "gwp" then 1%nat else if eqb u "odp" then 2%nat else if eqb u "kg" then 10%nat else if eqb u "m3" then 11%nat else 99%nat)
     (fun l => l) 77%nat (fun _ => true) (fun _ => false) false.
Definition in_kg : qflow := QFlow [0%nat] (Some 1%nat) false (new_flow (Some kg) true).
Definition in_m3 : qflow := QFlow [0%nat] (Some 1%nat) false (new_flow (Some m3) true).

Lemma qok_ok (r : qres (list (nat * item))) i v : (match r with QOk [(j, INum a)] => (i =? j)%nat && Qeq_bool (this a) (this v) | _ => false end)%bool = true -> r = QOk [(i, INum v)].
Proof.
  destruct r as [[|[j [a| |]] [|? ?]]|]; try discriminate. intros E. apply andb_true_iff in E as [A B]. apply Nat.eqb_eq in A. subst.
  repeat f_equal. apply Qc_is_canon. apply Qeq_bool_eq. exact B.
Qed.

(** Non-vacuity: two quantities on a flow in kg, in either order. *)
Example C59_example :
  (forall i x, dget i [(5%nat, in_kg)] = Some x -> simple exdb x) /\
  snd (do_lcia exdb odp "US" None false [5%nat] (fst (do_lcia exdb gwp "US" None false [5%nat; 5%nat] [(5%nat, in_kg)]))) = QOk [(5%nat, INum (Q2Qc 5))].
Proof.
  split.
  - intros i x E. cbn in E. destruct (eqb i 5%nat); [injection E as <-|discriminate]. intros r c q y R C NQ J. cbn in C. injection C as <-.
    unfold lookup_cfs in J. cbn [qf_inds in_kg fold_left db_ord exdb] in J. cbn in R. injection R as <-.
    unfold find2 in J. cbn [db_fq exdb Nat.eqb andb] in J.
    destruct (q =? 1)%nat; [cbn in J; destruct J as [<-|[]]; reflexivity|]. destruct (q =? 2)%nat; [cbn in J; destruct J as [<-|[]]; reflexivity|].
    destruct (Nat.eqb_spec q 10) as [->|]; [|cbn in J; contradiction]. exfalso. apply NQ. reflexivity.
  - apply qok_ok; vm_compute; reflexivity.
Qed.

(** A flow queried for one location keeps that location's factor for all others. *)
Theorem C59_other_locale_refuted :
  snd (do_lcia exdb gwp "US" None false [5%nat] [(5%nat, in_kg)]) = QOk [(5%nat, INum (Q2Qc 3))] /\
  snd (do_lcia exdb gwp "US" None false [5%nat] (fst (do_lcia exdb gwp "GLO" None false [5%nat] [(5%nat, in_kg)]))) = QOk [(5%nat, INum (Q2Qc 2))].
Proof. split; apply qok_ok; vm_compute; reflexivity. Qed.

(** Even with one locale: the conversion recorded by the first query makes the second one return zero. *)
Theorem C59_conversion_refuted :
  snd (do_lcia exdb odp "US" None false [5%nat] [(5%nat, in_m3)]) = QOk [(5%nat, INum (Q2Qc 20))] /\
  snd (do_lcia exdb odp "US" None false [5%nat] (fst (do_lcia exdb gwp "US" None false [5%nat] [(5%nat, in_m3)]))) = QOk [(5%nat, INum (Q2Qc 0))].
Proof. split; apply qok_ok; vm_compute; reflexivity. Qed.
Print Assumptions C59_other_locale_refuted.
Print Assumptions C59_conversion_refuted.

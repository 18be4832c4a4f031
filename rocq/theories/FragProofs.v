(** Lemmas about fragment traversal (model: FragModel.v). *)
From Verif Require Import Num Base PyStr ProcModel FragModel.
Open Scope Qc_scope.
Open Scope list_scope.

Section P.
Context (cf : nat -> nat -> Qc) (refq : nat -> nat).
Notation trav := (trav cf refq). Notation trav_node := (trav_node cf refq). Notation trav_fg := (trav_fg cf).

(** * Linearity *)
Definition scaled (k : Qc) (r : fret (list ffl * option Qc)) : fret (list ffl * option Qc) :=
  match r with FOk (l, cv) => FOk (map (fscale k) l, cv) | FErr e => FErr e end.
Definition linear (k : Qc) (rec : rect) : Prop := forall i nw seen q bal, rec i (nw * k) seen q bal = scaled k (rec i nw seen q bal).
Lemma fscale_comp a b x : fscale b (fscale a x) = fscale (a * b) x.
Proof. destruct x. cbn. f_equal; ring. Qed.
Lemma map_fscale_comp a b l : map (fscale b) (map (fscale a) l) = map (fscale (a * b)) l.
Proof. rewrite map_map. apply map_ext. intros x. apply fscale_comp. Qed.
Lemma fscale_fields k x : ff_ref (fscale k x) = ff_ref x /\ ff_flow (fscale k x) = ff_flow x /\ ff_dir (fscale k x) = ff_dir x /\ ff_term (fscale k x) = ff_term x
  /\ ff_mag (fscale k x) = ff_mag x * k /\ ff_nw (fscale k x) = ff_nw x * k /\ ff_cons (fscale k x) = ff_cons x /\ ff_subs (fscale k x) = ff_subs x.
Proof. destruct x. cbn. auto 10. Qed.
Lemma fg_loop_linear k rec nw seen q cs : linear k rec -> forall ffs stock bal,
  fg_loop rec (nw * k) seen q cs (map (fscale k) ffs) stock bal
  = match fg_loop rec nw seen q cs ffs stock bal with FOk (l, s, b) => FOk (map (fscale k) l, s, b) | FErr e => FErr e end.
Proof.
  intros L. induction cs as [|c cs IH]; intros ffs stock bal; cbn [fg_loop]; [reflexivity|]. rewrite L. destruct (rec c nw seen q None) as [[l cv]|e]; cbn [scaled].
  - rewrite <- map_app. apply IH.
  - destruct e; try reflexivity. apply IH.
Qed.
Lemma sub_loop_linear k rec h dn seen cs : linear k rec -> forall ffs inv,
  sub_loop rec h (dn * k) seen cs (map (fscale k) ffs) inv
  = match sub_loop rec h dn seen cs ffs inv with FOk (l, v) => FOk (map (fscale k) l, v) | FErr e => FErr e end.
Proof.
  intros L. induction cs as [|c cs IH]; intros ffs inv; cbn [sub_loop]; [reflexivity|]. destruct (h c) as [g|]; [|reflexivity].
  destruct (find_flow (f_flow g) inv) as [m|]; [|apply IH]. rewrite L. destruct (rec c dn seen None _) as [[l cv]|e]; cbn [scaled]; [|reflexivity].
  rewrite <- map_app. apply IH.
Qed.
Lemma trav_fg_linear k rec h sc obs i f x seen : linear k rec ->
  trav_fg rec h sc obs i f (fscale k x) seen = match trav_fg rec h sc obs i f x seen with FOk l => FOk (map (fscale k) l) | FErr e => FErr e end.
Proof.
  intros L. unfold FragModel.trav_fg. destruct (fscale_fields k x) as [_ [_ [_ [-> [_ [-> _]]]]]].
  match goal with |- context [match (if is_fg i (ff_term x) then ?a else ?b) with _ => _ end] => destruct (if is_fg i (ff_term x) then a else b) as [s0|e] end; [|reflexivity].
  change [fscale k x] with (map (fscale k) [x]). rewrite fg_loop_linear by exact L. set (stock := match f_cons f with None => s0 | Some q => _ end).
  destruct (fg_loop rec (ff_nw x) seen (f_cons f) (child_flows f) [x] stock None) as [[[ffs s] [b|]]|e]; try reflexivity.
  rewrite L. destruct (rec b (ff_nw x) seen None _) as [[l cv]|e]; cbn [scaled]; [|reflexivity]. rewrite map_app. reflexivity.
Qed.
Lemma trav_sub_linear k rec fuel h i f x j seen : linear k rec ->
  trav_sub rec fuel h i f (fscale k x) j seen = match trav_sub rec fuel h i f x j seen with FOk l => FOk (map (fscale k) l) | FErr e => FErr e end.
Proof.
  intros L. unfold trav_sub. destruct (h j) as [g|]; [|reflexivity]. destruct (f_bg g).
  - destruct (fscale_fields k x) as [_ [_ [_ [_ [_ [-> _]]]]]]. rewrite L. destruct (rec j (ff_nw x) [] None None) as [[[|y [|z l]] cv]|e]; cbn [scaled map]; try reflexivity; destruct y; cbn; reflexivity.
  - unfold do_subfrag. destruct (fscale_fields k x) as [_ [_ [_ [-> [_ [-> _]]]]]].
    destruct (unit_inventory rec fuel h j) as [[inv internal]|e]; [|reflexivity]. destruct (find_flow (t_flow (ff_term x)) inv) as [m|]; [|reflexivity].
    destruct (eqb (ff_mag m) (Q2Qc 0)); [reflexivity|]. set (inx := if eqb (ff_dir m) (f_dir f) then _ else _).
    replace (ff_nw x * k / inx) with (ff_nw x / inx * k) by (unfold Qcdiv; ring). set (dn := ff_nw x / inx). destruct (t_desc (ff_term x)).
    + assert (E : fscale k x :: map (fscale (dn * k)) internal = map (fscale k) (x :: map (fscale dn) internal)) by (cbn [map]; rewrite map_fscale_comp; reflexivity).
      rewrite E. rewrite sub_loop_linear by exact L. destruct (sub_loop rec h dn seen (child_flows f) _ _) as [[l v]|e]; [|reflexivity].
      rewrite map_app, map_fscale_comp. reflexivity.
    + destruct x as [r fl d m0 w t c s]. cbn [fscale]. change [FF r fl d (m0 * k) (dn * k) t c internal] with (map (fscale k) [FF r fl d m0 dn t c internal]).
      rewrite sub_loop_linear by exact L. destruct (sub_loop rec h dn seen (child_flows f) _ _) as [[l v]|e]; [|reflexivity].
      rewrite map_app, map_fscale_comp. reflexivity.
Qed.
Lemma trav_node_linear k rec fuel h sc obs : k <> 0 -> linear k rec -> linear k (trav_node rec fuel h sc obs).
Proof.
  intros K L i nw seen q bal. unfold FragModel.trav_node. destruct (h i) as [f|]; [|reflexivity]. set (isref := match f_parent f with None => true | Some _ => false end).
  destruct (isref && mem i seen); [reflexivity|]. set (seen' := if isref then i :: seen else seen).
  match goal with |- context [match ?a with FOk ev => _ | FErr e => _ end] => destruct a as [ev|e] end; [|reflexivity].
  destruct (match_term f sc) as [m|e]; [|reflexivity]. destruct (dget m (f_terms f)) as [t|]; [|reflexivity].
  replace (nw * k * ev) with (nw * ev * k) by ring. set (mag := nw * ev).
  set (A := if isref then FOk nw else if is_null t then FOk mag else _).
  assert (E : (if isref then FOk (nw * k) else if is_null t then FOk (mag * k) else match multiplier cf refq (f_flow f) t with FErr e => FErr e | FOk k0 => FOk (mag * k * k0) end)
            = match A with FOk w => FOk (w * k) | FErr e => FErr e end).
  { unfold A. destruct isref; auto. destruct (is_null t); auto. destruct (multiplier cf refq (f_flow f) t); auto. f_equal. ring. }
  rewrite E. destruct A as [w|e]; [|reflexivity]. destruct (conservation cf h f ev q) as [[cv kept]|e]; [|reflexivity].
  assert (Z : eqb (mag * k) (Q2Qc 0) = eqb mag (Q2Qc 0)).
  { destruct (eqb_spec mag (Q2Qc 0)) as [->|N]; [destruct (eqb_spec (Q2Qc 0 * k) (Q2Qc 0)) as [|C]; auto; exfalso; apply C; ring|].
    destruct (eqb_spec (mag * k) (Q2Qc 0)) as [C|]; auto. apply Qcmult_integral in C as [C|C]; contradiction. }
  rewrite Z. change (FF (Real i) (f_flow f) (f_dir f) (mag * k) (w * k) t kept []) with (fscale k (FF (Real i) (f_flow f) (f_dir f) mag w t kept [])).
  set (x := FF (Real i) (f_flow f) (f_dir f) mag w t kept []).
  destruct (is_null t || f_bg f || eqb mag (Q2Qc 0)); [reflexivity|]. destruct (t_node t) as [|p|j]; [reflexivity| |].
  - rewrite trav_fg_linear by exact L. destruct (trav_fg rec h sc obs i f x seen'); reflexivity.
  - destruct (Nat.eqb j i); [rewrite trav_fg_linear by exact L; destruct (trav_fg rec h sc obs i f x seen'); reflexivity|].
    rewrite trav_sub_linear by exact L. destruct (trav_sub rec fuel h i f x j seen'); reflexivity.
Qed.
Lemma trav_linear k fuel h sc obs : k <> 0 -> linear k (trav fuel h sc obs).
Proof. intros K. induction fuel as [|n IH]; cbn [FragModel.trav]; [intros i nw seen q bal; reflexivity|]. apply trav_node_linear; auto. Qed.
End P.

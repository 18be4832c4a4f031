(** Proofs about the model in EiLciaModel.v. *)
From Coq Require Import String Lia.
From Verif Require Import Num Base EiLciaModel.
Open Scope nat_scope.
Open Scope string_scope.
Open Scope list_scope.
Local Arguments eqb : simpl never.

(** ** Vocabulary *)
(** The archive has the factor v for the flow fk and the quantity qk. *)
Definition holds (a : earch) (fk qk : string) (v : Qc) : Prop := exists f ch, dget fk (a_ents a) = Some (EFlow f ch) /\ dget qk ch = Some v.
(** The row states it. *)
Definition states (r : erow) (fk qk : string) (v : Qc) : Prop := fkey (e_f r) = fk /\ qkey (e_q r) = qk /\ value_cell r = CNum v.
Definition first_with {A} (key : A -> string) (l : list A) (k : string) (x : A) : Prop := exists l1 l2, l = l1 ++ x :: l2 /\ key x = k /\ forall y, In y l1 -> key y <> k.
(** Rows are numbers, none has the flow and the quantity of another, and no flow has the key of a quantity. *)
Record good (inds : list qcols) (rows : list erow) : Prop := {
  g_num : forall r, In r rows -> exists v, value_cell r = CNum v;
  g_dist : forall i j r r', nth_error rows i = Some r -> nth_error rows j = Some r' -> fkey (e_f r) = fkey (e_f r') -> qkey (e_q r) = qkey (e_q r') -> i = j;
  g_apart : forall r q, In r rows -> In q (inds ++ map e_q rows) -> fkey (e_f r) <> qkey q }.

Lemma first_with_fun {A} (key : A -> string) l k x y : first_with key l k x -> first_with key l k y -> x = y.
Proof.
  intros (l1 & l2 & E1 & K1 & N1) (m1 & m2 & E2 & K2 & N2). subst l. revert m1 E2 N2. induction l1 as [|a l1 IH]; intros [|b m1] E2 N2; cbn in E2.
  - congruence.
  - injection E2 as -> _. exfalso. exact (N2 b (or_introl eq_refl) K1).
  - injection E2 as -> _. exfalso. exact (N1 y (or_introl eq_refl) K2).
  - injection E2 as -> E2. apply (IH (fun z J => N1 z (or_intror J)) m1 E2). intros z J. apply N2. right. exact J.
Qed.
Lemma first_with_in {A} (key : A -> string) l k : (exists x, first_with key l k x) <-> In k (map key l).
Proof.
  split.
  - intros (x & l1 & l2 & -> & <- & _). apply in_map, in_or_app. right. left. reflexivity.
  - induction l as [|a l IH]; [intros []|]. intros I. destruct (eqb_spec (key a) k) as [E|N]; [exists a, [], l; split; [reflexivity|split; [exact E|intros y []]]|].
    destruct I as [I|I]; [contradiction|]. destruct (IH I) as (x & l1 & l2 & -> & K & M). exists x, (a :: l1), l2. split; [reflexivity|]. split; [exact K|]. intros y [<-|J]; [exact N|exact (M y J)].
Qed.
Lemma first_with_snoc {A} (key : A -> string) l a k x : first_with key (l ++ [a]) k x <-> first_with key l k x \/ (x = a /\ key a = k /\ ~ In k (map key l)).
Proof.
  split.
  - intros (l1 & l2 & E & K & N). destruct l2 as [|b l2] using rev_ind; [|clear IHl2].
    + apply app_inj_tail in E. destruct E as (-> & ->). right. split; [reflexivity|]. split; [exact K|]. intros I. apply in_map_iff in I. destruct I as (y & Ey & I). exact (N y I Ey).
    + rewrite app_comm_cons, app_assoc in E. apply app_inj_tail in E. destruct E as (-> & ->). left. exists l1, l2. auto.
  - intros [(l1 & l2 & -> & K & N)|(-> & K & N)].
    + exists l1, (l2 ++ [a]). split; [rewrite <- app_assoc; reflexivity|auto].
    + exists l, []. split; [reflexivity|]. split; [exact K|]. intros y I Ey. apply N. rewrite <- Ey. apply in_map, I.
Qed.

(** ** What the archive holds after some rows *)
Record inv (inds : list qcols) (rows : list erow) (a : earch) : Prop := {
  i_q : forall k q, dget k (a_ents a) = Some (EQty q) <-> first_with qkey (inds ++ map e_q rows) k q;
  i_f : forall k f ch, dget k (a_ents a) = Some (EFlow f ch) -> first_with fkey (map e_f rows) k f /\ forall qk v, dget qk ch = Some v <-> exists r, In r rows /\ states r k qk v;
  i_p : forall k, In k (map fkey (map e_f rows)) -> exists f ch, dget k (a_ents a) = Some (EFlow f ch) }.
Lemma inv_none inds rows a k : inv inds rows a -> dget k (a_ents a) = None <-> ~ In k (map qkey (inds ++ map e_q rows)) /\ ~ In k (map fkey (map e_f rows)).
Proof.
  intros [Q F P]. split.
  - intros E. split; intros I; [apply first_with_in in I; destruct I as (q & I); apply Q in I; congruence|]. destruct (P k I) as (f & ch & E'). congruence.
  - intros (N1 & N2). destruct (dget k (a_ents a)) as [[q|f ch]|] eqn:E; [|exfalso|reflexivity].
    + exfalso. apply N1. apply first_with_in. exists q. apply Q, E.
    + apply N2. apply first_with_in. exists f. apply (F _ _ _ E).
Qed.
Lemma inds_inv inds : inv inds [] (fold_left (fun a q => create_quantity q a) inds enew).
Proof.
  induction inds as [|q inds IH] using rev_ind.
  - split; [|intros k f ch H; discriminate H|intros k []]. intros k q. split; [intros H; discriminate H|]. intros ([|? ?] & l2 & E & _); discriminate E.
  - rewrite fold_left_app. cbn [fold_left]. set (a := fold_left _ inds enew) in *. cbn [map] in *. 
    assert (X: forall k q0, first_with qkey ((inds ++ [q]) ++ []) k q0 <-> first_with qkey (inds ++ []) k q0 \/ q0 = q /\ qkey q = k /\ ~ In k (map qkey inds)) by (intros; rewrite !app_nil_r; apply first_with_snoc).
    unfold create_quantity, din. destruct (dget (qkey q) (a_ents a)) as [e|] eqn:E.
    + split; [|exact (i_f _ _ _ IH)|exact (i_p _ _ _ IH)]. intros k q0. rewrite (i_q _ _ _ IH). cbn [map]. rewrite X. split; [auto|]. intros [H|(-> & <- & N)]; [exact H|]. exfalso.
      assert (Z: dget (qkey q) (a_ents a) = None) by (apply (inv_none inds [] a _ IH); cbn [map]; rewrite app_nil_r; split; [exact N|intros []]). congruence.
    + pose proof (proj1 (inv_none _ _ _ _ IH) E) as (N & _). cbn [map] in N. rewrite app_nil_r in N. split; cbn [put a_ents].
      * intros k q0. rewrite dget_dset. cbn [map]. rewrite X. destruct (eqb_spec k (qkey q)) as [->|Nk].
        -- split; [intros [= <-]; right; auto|]. intros [H|(-> & _)]; [|reflexivity]. exfalso. apply N. apply first_with_in. exists q0. rewrite app_nil_r in H. exact H.
        -- rewrite (i_q _ _ _ IH). cbn [map]. split; [auto|]. intros [H|(_ & H & _)]; [exact H|congruence].
      * intros k f ch. rewrite dget_dset. destruct (eqb_spec k (qkey q)) as [->|]; [discriminate|]. apply (i_f _ _ _ IH).
      * intros k [].
Qed.
Lemma good_snoc inds rows r : good inds (rows ++ [r]) <-> good inds rows /\ (exists v, value_cell r = CNum v) /\
  (forall r', In r' rows -> fkey (e_f r') = fkey (e_f r) -> qkey (e_q r') = qkey (e_q r) -> False) /\
  ~ In (fkey (e_f r)) (map qkey (inds ++ map e_q rows)) /\ ~ In (qkey (e_q r)) (map fkey (map e_f rows)) /\ fkey (e_f r) <> qkey (e_q r).
Proof.
  split.
  - intros [N D A]. rewrite map_app in A. cbn [map] in A. repeat split.
    + intros r' J. apply N, in_or_app. auto.
    + intros i j r1 r2 E1 E2. apply D; rewrite nth_error_app1 by (eapply nth_error_lt; eassumption); assumption.
    + intros r' q J I. apply A; [apply in_or_app; auto|]. rewrite app_assoc. apply in_or_app. auto.
    + apply N, in_or_app. right. left. reflexivity.
    + intros r' J E1 E2. apply In_nth_error in J. destruct J as (i & Ei). assert (Li: i < List.length rows) by (eapply nth_error_lt, Ei).
      assert (i = List.length rows); [|lia]. apply (D i (List.length rows) r' r); [rewrite nth_error_app1 by exact Li; exact Ei|rewrite nth_error_app2, Nat.sub_diag by lia; reflexivity|exact E1|exact E2].
    + intros I. apply in_map_iff in I. destruct I as (q & Eq & I). apply (A r q); [apply in_or_app; right; left; reflexivity|rewrite app_assoc; apply in_or_app; left; exact I|congruence].
    + intros I. rewrite map_map, in_map_iff in I. destruct I as (r' & Er & I). apply (A r' (e_q r)); [apply in_or_app; auto|rewrite app_assoc; apply in_or_app; right; left; reflexivity|exact Er].
    + apply A; [apply in_or_app; right; left; reflexivity|rewrite app_assoc; apply in_or_app; right; left; reflexivity].
  - intros ([N D A] & Nr & Dr & A1 & A2 & A3). split.
    + intros r' J. apply in_app_or in J. destruct J as [J|[<-|[]]]; [exact (N r' J)|exact Nr].
    + intros i j r1 r2 E1 E2 K1 K2. rewrite nth_error_snoc in E1, E2.
      destruct (Nat.eqb_spec i (List.length rows)) as [->|]; destruct (Nat.eqb_spec j (List.length rows)) as [->|]; [reflexivity| | |exact (D i j r1 r2 E1 E2 K1 K2)].
      * injection E1 as <-. apply nth_error_In in E2. destruct (Dr r2 E2 (eq_sym K1) (eq_sym K2)).
      * injection E2 as <-. apply nth_error_In in E1. destruct (Dr r1 E1 K1 K2).
    + intros r' q J I E. rewrite map_app, app_assoc in I. cbn [map] in I. apply in_app_or in J. apply in_app_or in I. destruct J as [J|[<-|[]]], I as [I|[<-|[]]].
      * exact (A r' q J I E).
      * apply A2. rewrite map_map, in_map_iff. exists r'. auto.
      * apply A1. apply in_map_iff. exists q. auto.
      * exact (A3 E).
Qed.

(** ** One row *)
Definition mid (r : erow) (a : earch) : earch := create_quantity (e_q r) (create_flow (e_f r) a).
Lemma mid_get r a k : dget k (a_ents (mid r a)) =
  match dget k (a_ents a) with
  | Some e => Some e
  | None => if eqb k (fkey (e_f r)) then Some (EFlow (e_f r) []) else if eqb k (qkey (e_q r)) then Some (EQty (e_q r)) else None
  end.
Proof.
  unfold mid. assert (F: forall k, dget k (a_ents (create_flow (e_f r) a)) = match dget k (a_ents a) with Some e => Some e | None => if eqb k (fkey (e_f r)) then Some (EFlow (e_f r) []) else None end).
  { intros k0. unfold create_flow, din. destruct (dget (fkey (e_f r)) (a_ents a)) as [e|] eqn:E.
    - destruct (eqb_spec k0 (fkey (e_f r))) as [->|]; [rewrite E; reflexivity|]. destruct (dget k0 (a_ents a)); reflexivity.
    - cbn [put a_ents]. rewrite dget_dset. destruct (eqb_spec k0 (fkey (e_f r))) as [->|]; [rewrite E; reflexivity|]. destruct (dget k0 (a_ents a)); reflexivity. }
  unfold create_quantity, din. destruct (dget (qkey (e_q r)) (a_ents (create_flow (e_f r) a))) as [e|] eqn:E.
  - rewrite F. rewrite F in E. destruct (dget k (a_ents a)) eqn:K; [reflexivity|]. destruct (eqb_spec k (fkey (e_f r))) as [->|N]; [reflexivity|].
    destruct (eqb_spec k (qkey (e_q r))) as [->|]; [|reflexivity]. rewrite K in E. destruct (eqb_spec (qkey (e_q r)) (fkey (e_f r))); [contradiction|discriminate].
  - cbn [put a_ents]. rewrite dget_dset, F. rewrite F in E. destruct (eqb_spec k (qkey (e_q r))) as [->|N].
    + destruct (dget (qkey (e_q r)) (a_ents a)); [discriminate|]. destruct (eqb (qkey (e_q r)) (fkey (e_f r))); [discriminate|reflexivity].
    + destruct (dget k (a_ents a)); [reflexivity|]. destruct (eqb k (fkey (e_f r))); reflexivity.
Qed.
Lemma mid_loaded r a : a_loaded (mid r a) = a_loaded a.
Proof. unfold mid, create_quantity, create_flow. destruct (din (fkey (e_f r)) (a_ents a)); cbn [put a_loaded]; destruct (din (qkey (e_q r)) _); reflexivity. Qed.
Lemma mid_mid r a : mid r (mid r a) = mid r a.
Proof.
  assert (F: din (fkey (e_f r)) (a_ents (mid r a)) = true). { unfold din. rewrite mid_get, eqb_refl. destruct (dget (fkey (e_f r)) (a_ents a)); reflexivity. }
  assert (Q: din (qkey (e_q r)) (a_ents (mid r a)) = true). { unfold din. rewrite mid_get, eqb_refl. destruct (dget (qkey (e_q r)) (a_ents a)); [reflexivity|]. destruct (eqb (qkey (e_q r)) (fkey (e_f r))); reflexivity. }
  unfold mid at 1. unfold create_flow. rewrite F. unfold create_quantity. rewrite Q. reflexivity.
Qed.
Lemma mid_holds r a fk qk v : holds (mid r a) fk qk v <-> holds a fk qk v.
Proof.
  unfold holds. split; intros (f & ch & E & K); exists f, ch; (split; [|exact K]).
  - rewrite mid_get in E. destruct (dget fk (a_ents a)); [exact E|]. destruct (eqb fk _); [injection E as <- <-; discriminate K|]. destruct (eqb fk _); discriminate E.
  - rewrite mid_get, E. reflexivity.
Qed.
Lemma add_row_mid r a a1 e : add_row r a = (a1, Some e) -> a1 = mid r a.
Proof.
  unfold add_row. fold (mid r a). destruct (value_cell r) as [v|s]; [|intros [= <- _]; reflexivity].
  destruct (dget _ (a_ents (mid r a))) as [[q|f ch]|]; try (intros [= <- _]; reflexivity). destruct (dget _ ch); [intros [= <- _]; reflexivity|].
  destruct (dget _ (a_ents (mid r a))) as [[q|f' ch']|]; try (intros [= <- _]; reflexivity).
Qed.
Lemma add_row_again r a a1 e : add_row r a = (a1, Some e) -> add_row r a1 = (a1, Some e).
Proof.
  intros E. pose proof (add_row_mid _ _ _ _ E) as ->. unfold add_row in *. fold (mid r a) in E. fold (mid r (mid r a)). rewrite mid_mid. exact E.
Qed.
Lemma add_row_spec inds rows r a : inv inds rows a -> good inds rows ->
  match add_row r a with
  | (a1, None) => good inds (rows ++ [r]) /\ inv inds (rows ++ [r]) a1 /\ a_loaded a1 = a_loaded a
  | (a1, Some _) => ~ good inds (rows ++ [r])
  end.
Proof.
  intros I G. pose proof (mid_get r a) as M. unfold add_row. fold (mid r a). set (fk := fkey (e_f r)) in *. set (qk := qkey (e_q r)) in *.
  destruct (value_cell r) as [v|s] eqn:V; [|rewrite good_snoc; intros (_ & (v & H) & _); congruence].
  destruct (dget fk (a_ents (mid r a))) as [[q|f ch]|] eqn:EF.
  - rewrite M, eqb_refl in EF. destruct (dget fk (a_ents a)) as [e|] eqn:E; [|discriminate]. injection EF as ->. apply (i_q _ _ _ I) in E.
    rewrite good_snoc. intros (_ & _ & _ & N & _). apply N. apply first_with_in. exists q. exact E.
  - assert (CH: forall qk' v', dget qk' ch = Some v' <-> exists r', In r' rows /\ states r' fk qk' v').
    { rewrite M, eqb_refl in EF. destruct (dget fk (a_ents a)) as [e|] eqn:E.
      - injection EF as ->. intros qk' v'. exact (proj2 (i_f _ _ _ I _ _ _ E) qk' v').
      - injection EF as <- <-. apply (inv_none _ _ _ _ I) in E. destruct E as (_ & E). intros qk' v'. split; [discriminate|]. intros (r' & J & K & _). exfalso. apply E. rewrite map_map, in_map_iff. exists r'. auto. }
    destruct (dget qk ch) as [v0|] eqn:D.
    + apply CH in D. destruct D as (r' & J & K1 & K2 & _). rewrite good_snoc. intros (_ & _ & X & _). exact (X r' J K1 K2).
    + destruct (dget qk (a_ents (mid r a))) as [[q|f' ch']|] eqn:EQ.
      * assert (Nq: ~ In fk (map qkey (inds ++ map e_q rows))).
        { intros X. apply first_with_in in X. destruct X as (q0 & X). apply (i_q _ _ _ I) in X. rewrite M, X in EF. discriminate EF. }
        assert (Nf: ~ In qk (map fkey (map e_f rows))).
        { intros X. destruct (i_p _ _ _ I _ X) as (f0 & ch0 & X'). rewrite M, X' in EQ. discriminate EQ. }
        assert (Ne: fk <> qk) by (intros X; rewrite X in EF; congruence).
        split; [|split; [|cbn [put a_loaded]; apply mid_loaded]].
        -- rewrite good_snoc. split; [exact G|]. split; [exists v; exact V|]. split; [|split; [exact Nq|split; [exact Nf|exact Ne]]].
           intros r' J K1 K2. destruct (g_num _ _ G r' J) as (v' & V'). assert (X: dget qk ch = Some v') by (apply CH; exists r'; repeat split; assumption). congruence.
        -- split; cbn [put a_ents].
           ++ intros k q0. rewrite map_app, app_assoc. cbn [map]. rewrite first_with_snoc, dget_dset. fold qk. destruct (eqb_spec k fk) as [->|Nk].
              ** split; [discriminate|]. intros [X|(_ & X & _)]; [exfalso; apply Nq, first_with_in; exists q0; exact X|congruence].
              ** rewrite M. rewrite (proj2 (eqb_neq k fk) Nk). split.
                 --- destruct (dget k (a_ents a)) as [e|] eqn:E; [intros [= ->]; left; apply (i_q _ _ _ I), E|]. destruct (eqb_spec k qk) as [->|]; [|discriminate]. intros [= <-].
                     right. apply (inv_none _ _ _ _ I) in E. destruct E as (E & _). auto.
                 --- intros [X|(-> & <- & X)]; [apply (i_q _ _ _ I) in X; rewrite X; reflexivity|]. assert (Z: dget qk (a_ents a) = None) by (apply (inv_none _ _ _ _ I); auto). rewrite Z, eqb_refl. reflexivity.
           ++ intros k f0 ch0. rewrite dget_dset, map_app. cbn [map]. destruct (eqb_spec k fk) as [->|Nk].
              ** intros [= <- <-]. split.
                 --- rewrite first_with_snoc. rewrite M, eqb_refl in EF. destruct (dget fk (a_ents a)) as [e|] eqn:E; [injection EF as ->; left; apply (i_f _ _ _ I _ _ _ E)|].
                     injection EF as <- <-. right. apply (inv_none _ _ _ _ I) in E. split; [reflexivity|]. split; [reflexivity|apply E].
                 --- intros qk' v'. rewrite dget_dset. destruct (eqb_spec qk' qk) as [->|Nq'].
                     +++ split; [intros [= <-]; exists r; split; [apply in_or_app; right; left; reflexivity|repeat split; exact V]|].
                         intros (r' & J & S). apply in_app_or in J. destruct J as [J|[<-|[]]]; [|destruct S as (_ & _ & S); congruence]. exfalso. assert (X: dget qk ch = Some v') by (apply CH; exists r'; auto). congruence.
                     +++ rewrite CH. split; intros (r' & J & S); exists r'; (split; [|exact S]); [apply in_or_app; auto|]. apply in_app_or in J. destruct J as [J|[<-|[]]]; [exact J|]. destruct S as (_ & S & _). exfalso. apply Nq'. symmetry. exact S.
              ** rewrite M, (proj2 (eqb_neq k fk) Nk). destruct (dget k (a_ents a)) as [e|] eqn:E; [|destruct (eqb k qk); discriminate]. intros [= ->]. destruct (i_f _ _ _ I _ _ _ E) as (X & Y).
                 split; [apply first_with_snoc; left; exact X|]. intros qk' v'. rewrite Y. split; intros (r' & J & S); exists r'; (split; [|exact S]); [apply in_or_app; auto|].
                 apply in_app_or in J. destruct J as [J|[<-|[]]]; [exact J|]. destruct S as (S & _). exfalso. apply Nk. symmetry. exact S.
           ++ intros k. rewrite map_app, map_app, in_app_iff. cbn [map In]. rewrite dget_dset. destruct (eqb_spec k fk) as [->|Nk]; [intros _; eexists; eexists; reflexivity|].
              intros [J|[J|[]]]; [|exfalso; apply Nk; symmetry; exact J]. destruct (i_p _ _ _ I _ J) as (f0 & ch0 & E). exists f0, ch0. rewrite M, E. reflexivity.
      * rewrite good_snoc. intros (_ & _ & _ & _ & N2 & N3). fold fk qk in N2, N3. rewrite M, (proj2 (eqb_neq qk fk)) in EQ by congruence. destruct (dget qk (a_ents a)) as [e|] eqn:E; [|rewrite eqb_refl in EQ; discriminate].
        injection EQ as ->. apply N2. apply first_with_in. exists f'. apply (i_f _ _ _ I _ _ _ E).
      * exfalso. rewrite M, eqb_refl in EQ. destruct (dget qk (a_ents a)); [discriminate|]. destruct (eqb qk fk); discriminate.
  - exfalso. rewrite M, eqb_refl in EF. destruct (dget fk (a_ents a)); discriminate.
Qed.

(** ** All rows *)
Lemma add_rows_app l m a : add_rows (l ++ m) a = match add_rows l a with (a1, None) => add_rows m a1 | (a1, Some e) => (a1, Some e) end.
Proof. revert a. induction l as [|r l IH]; intros a; [reflexivity|]. cbn [app add_rows]. destruct (add_row r a) as (a1, [e|]); [reflexivity|]. apply IH. Qed.
Definition start (inds : list qcols) : earch := fold_left (fun a q => create_quantity q a) inds enew.
Lemma good_prefix inds l m : good inds (l ++ m) -> good inds l.
Proof.
  induction m as [|r m IH] using rev_ind; [rewrite app_nil_r; auto|]. rewrite app_assoc, good_snoc. intros (H & _). apply IH, H.
Qed.
Lemma good_nil inds : good inds [].
Proof. split; [intros r []|intros [|i] j r r' E; discriminate E|intros r q []]. Qed.
Lemma start_loaded inds : forall a, a_loaded (fold_left (fun a q => create_quantity q a) inds a) = a_loaded a.
Proof. induction inds as [|q inds IH]; intros a; [reflexivity|]. cbn [fold_left]. rewrite IH. unfold create_quantity. destruct (din _ _); reflexivity. Qed.
(** The rows before the first bad one are added. *)
Lemma add_rows_good inds rows : good inds rows -> exists a, add_rows rows (start inds) = (a, None) /\ inv inds rows a /\ a_loaded a = false.
Proof.
  induction rows as [|r rows IH] using rev_ind; intros G.
  - exists (start inds). split; [reflexivity|]. split; [apply inds_inv|apply start_loaded].
  - pose proof (good_prefix _ _ _ G) as G'. destruct (IH G') as (a & E & I & L). rewrite add_rows_app, E. cbn [add_rows]. pose proof (add_row_spec inds rows r a I G') as S.
    destruct (add_row r a) as (a1, [e|]); [contradiction|]. exists a1. split; [reflexivity|]. split; [apply S|]. destruct S as (_ & _ & S). congruence.
Qed.
Lemma add_rows_bad inds pre r post : good inds pre -> ~ good inds (pre ++ [r]) -> exists a e, inv inds pre a /\ a_loaded a = false /\ add_row r a = (mid r a, Some e) /\ add_rows (pre ++ r :: post) (start inds) = (mid r a, Some e).
Proof.
  intros G N. destruct (add_rows_good _ _ G) as (a & E & I & L). pose proof (add_row_spec inds pre r a I G) as S. destruct (add_row r a) as (a1, [e|]) eqn:A; [|destruct S; contradiction].
  pose proof (add_row_mid _ _ _ _ A) as ->. exists a, e. split; [exact I|]. split; [exact L|]. split; [exact A|]. rewrite add_rows_app, E. cbn [add_rows]. rewrite A. reflexivity.
Qed.
(** Rows are good or have a first bad one. *)
Lemma good_or inds rows : good inds rows \/ exists pre r post, rows = pre ++ r :: post /\ good inds pre /\ ~ good inds (pre ++ [r]).
Proof.
  induction rows as [|r rows IH] using rev_ind; [left; apply good_nil|]. destruct IH as [G|(pre & r0 & post & -> & G & N)].
  - destruct (add_rows_good _ _ G) as (a & E & I & L). pose proof (add_row_spec inds rows r a I G) as S. destruct (add_row r a) as (a1, [e|]); [|left; apply S].
    right. exists rows, r, []. auto.
  - right. exists pre, r0, (post ++ [r]). split; [rewrite <- app_assoc; reflexivity|auto].
Qed.
Lemma inds_again inds : forall a, (forall q, In q inds -> dget (qkey q) (a_ents a) <> None) -> fold_left (fun a q => create_quantity q a) inds a = a.
Proof.
  induction inds as [|q inds IH]; intros a H; [reflexivity|]. cbn [fold_left]. assert (E: create_quantity q a = a).
  { unfold create_quantity, din. specialize (H q (or_introl eq_refl)). destruct (dget (qkey q) (a_ents a)); [reflexivity|congruence]. }
  rewrite E. apply IH. intros q' J. apply H. right. exact J.
Qed.
Lemma inv_has inds rows a q : inv inds rows a -> In q inds -> dget (qkey q) (a_ents a) <> None.
Proof. intros I J E. apply (inv_none _ _ _ _ I) in E. destruct E as (E & _). apply E, in_map, in_or_app. auto. Qed.
(** A second attempt changes nothing. *)
Lemma load_again inds rows a e : load inds rows enew = (a, Some e) -> a_loaded a = false /\ exists e', load inds rows a = (a, Some e') /\ (e' = e \/ e' = EDuplicate) /\ (forall r0 rest, rows = r0 :: rest -> good inds [r0] -> e' = EDuplicate).
Proof.
  unfold load. cbn [a_loaded enew]. fold (start inds). destruct (good_or inds rows) as [G|(pre & r & post & -> & G & N)].
  - destruct (add_rows_good _ _ G) as (a1 & -> & _). discriminate.
  - destruct (add_rows_bad inds pre r post G N) as (a0 & e0 & I & L & A & ->). intros [= <- <-]. rewrite mid_loaded, L. split; [reflexivity|].
    rewrite inds_again by (intros q J; rewrite mid_get; pose proof (inv_has _ _ _ _ I J) as X; destruct (dget (qkey q) (a_ents a0)); [discriminate|congruence]).
    destruct pre as [|r0 pre].
    + exists e0. split; [cbn [app add_rows]; rewrite (add_row_again _ _ _ _ A); reflexivity|]. split; [auto|]. cbn [app] in *. intros r0 rest [= <- _] G0. contradiction.
    + exists EDuplicate. split; [|auto]. cbn [app add_rows].
      assert (D: add_row r0 (mid r a0) = (mid r a0, Some EDuplicate)).
      { destruct (g_num _ _ G r0 (or_introl eq_refl)) as (v & V). destruct (i_p _ _ _ I (fkey (e_f r0))) as (f & ch & EF); [left; reflexivity|]. pose proof (proj2 (i_f _ _ _ I _ _ _ EF)) as CH.
        assert (K: dget (qkey (e_q r0)) ch = Some v) by (apply CH; exists r0; split; [left; reflexivity|repeat split; exact V]).
        assert (Fq: dget (qkey (e_q r0)) (a_ents a0) <> None). { intros X. apply (inv_none _ _ _ _ I) in X. destruct X as (X & _). apply X, in_map, in_or_app. right. left. reflexivity. }
        assert (M0: mid r0 (mid r a0) = mid r a0).
        { unfold mid at 1. unfold create_flow, din. rewrite mid_get, EF. unfold create_quantity, din. rewrite mid_get. destruct (dget (qkey (e_q r0)) (a_ents a0)); [reflexivity|congruence]. }
        unfold add_row. fold (mid r0 (mid r a0)). rewrite M0, V, mid_get, EF, K. reflexivity. }
      rewrite D. reflexivity.
Qed.

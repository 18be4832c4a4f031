(** Lemmas for C116. *)
From Coq Require Import QArith.Qcabs.
From Verif Require Import Num Base PyStr LciaModel LciaProofs LciaProps AutoRangeModel AutoRangeProps ChartModel QcLra.
Open Scope string_scope.
Open Scope list_scope.
Open Scope Qc_scope.
Open Scope list_scope.

Ltac ltb x y := destruct (Qcltb_spec x y).
Lemma ltb_true x y : Qcltb x y = true <-> x < y. Proof. ltb x y; split; congruence. Qed.
Lemma ltb_false x y : Qcltb x y = false <-> y <= x. Proof. ltb x y; split; intros; try congruence; try reflexivity; qclra. Qed.

(** ** max and min *)
Lemma qmax_l a b : a <= qmax a b. Proof. unfold qmax. ltb a b; qclra. Qed.
Lemma qmax_r a b : b <= qmax a b. Proof. unfold qmax. ltb a b; qclra. Qed.
Lemma qmin_l a b : qmin a b <= a. Proof. unfold qmin. ltb b a; qclra. Qed.
Lemma qmin_r a b : qmin a b <= b. Proof. unfold qmin. ltb b a; qclra. Qed.
Lemma lmax_in x r : In (lmax x r) (x :: r).
Proof. revert x. induction r as [|y r IH]; intros x; cbn [lmax]; [left; reflexivity|]. unfold qmax. destruct (Qcltb x (lmax y r)); [right; apply IH|left; reflexivity]. Qed.
Lemma lmax_ge x r : forall y, In y (x :: r) -> y <= lmax x r.
Proof.
  revert x. induction r as [|z r IH]; intros x y; cbn [lmax].
  - intros [-> | []]. qclra.
  - intros [-> | I]; [apply qmax_l|]. pose proof (IH z y I). pose proof (qmax_r x (lmax z r)). qclra.
Qed.
Lemma lmin_in x r : In (lmin x r) (x :: r).
Proof. revert x. induction r as [|y r IH]; intros x; cbn [lmin]; [left; reflexivity|]. unfold qmin. destruct (Qcltb (lmin y r) x); [right; apply IH|left; reflexivity]. Qed.
Lemma lmin_le x r : forall y, In y (x :: r) -> lmin x r <= y.
Proof.
  revert x. induction r as [|z r IH]; intros x y; cbn [lmin].
  - intros [-> | []]. qclra.
  - intros [-> | I]; [apply qmin_l|]. pose proof (IH z y I). pose proof (qmin_r x (lmin z r)). qclra.
Qed.

(** ** contrib_query *)
Lemma isclose6_zero a : isclose6 a 0 = eqb a 0.
Proof.
  unfold isclose6. replace (a - 0) with a by ring. rewrite Qcabs_pos with (x := 0) by discriminate.
  destruct (eqb_spec a 0) as [->|N].
  - rewrite Qcabs_pos by discriminate. reflexivity.
  - pose proof (abs_pos a N). apply negb_false_iff, ltb_true. unfold qmax. ltb (Qcabs a) 0; qclra.
Qed.

(** ** running sums *)
Lemma accumulate_nth l : forall c j, nth_error (accumulate c l) j = if Nat.ltb j (length l) then Some (c + Qcsum (firstn (S j) l)) else None.
Proof.
  induction l as [|x l IH]; intros c [|j]; cbn [accumulate nth_error length]; try reflexivity.
  - cbn. f_equal. rewrite Qcplus_0_r. reflexivity.
  - rewrite IH. change (Nat.ltb (S j) (S (length l))) with (Nat.ltb j (length l)). destruct (Nat.ltb j (length l)); [|reflexivity].
    f_equal. cbn [firstn]. rewrite !Qcsum_cons. ring.
Qed.
Lemma accumulate_in l k : In k (accumulate 0 l) <-> exists j, (j < length l)%nat /\ k = Qcsum (firstn (S j) l).
Proof.
  split.
  - intros I. apply In_nth_error in I as [j E]. rewrite accumulate_nth in E. destruct (Nat.ltb_spec j (length l)) as [L|L]; [|discriminate].
    rewrite Qcplus_0_l in E. exists j. split; [exact L|congruence].
  - intros (j & L & ->). apply nth_error_In with j. rewrite accumulate_nth. destruct (Nat.ltb_spec j (length l)); [|lia]. rewrite Qcplus_0_l. reflexivity.
Qed.
Lemma range_fold ks : forall b, fst b <= snd b ->
  let r := fold_left range_step ks b in
  fst r <= fst b /\ snd b <= snd r /\ (forall k, In k ks -> fst r <= k <= snd r) /\
  (fst r = fst b \/ In (fst r) ks) /\ (snd r = snd b \/ In (snd r) ks).
Proof.
  induction ks as [|k ks IH]; intros b B; cbn [fold_left]; cbv zeta.
  - split; [qclra|]. split; [qclra|]. split; [intros ? []|]. auto.
  - assert (B' : fst (range_step b k) <= snd (range_step b k) /\ fst (range_step b k) <= fst b /\ snd b <= snd (range_step b k)
                 /\ fst (range_step b k) <= k <= snd (range_step b k)).
    { unfold range_step. cbn [fst snd]. ltb (snd b) k; ltb k (fst b); repeat split; qclra. }
    destruct B' as (B1 & B2 & B3 & B4 & B5). destruct (IH _ B1) as (A1 & A2 & A3 & A4 & A5). split; [qclra|]. split; [qclra|].
    split; [intros x [-> | I]; [split; qclra|apply A3, I]|]. split.
    + destruct A4 as [A4|A4]; [|right; right; exact A4]. rewrite A4. unfold range_step. cbn [fst snd]. destruct (Qcltb k (fst b)); [right; left; reflexivity|left; reflexivity].
    + destruct A5 as [A5|A5]; [|right; right; exact A5]. rewrite A5. unfold range_step. cbn [fst snd]. destruct (Qcltb (snd b) k); [right; left; reflexivity|left; reflexivity].
Qed.
Lemma data_range_flat ds : data_range ds = fold_left range_step (flat_map (accumulate 0) ds) (0, 0).
Proof.
  unfold data_range. generalize (0, 0). induction ds as [|d ds IH]; intros b; [reflexivity|]. cbn [fold_left flat_map]. rewrite fold_left_app. apply IH.
Qed.
Lemma data_range_spec ds : let r := data_range ds in
  fst r <= 0 <= snd r /\ (forall k, In k (flat_map (accumulate 0) ds) -> fst r <= k <= snd r) /\
  In (fst r) (0 :: flat_map (accumulate 0) ds) /\ In (snd r) (0 :: flat_map (accumulate 0) ds).
Proof.
  cbv zeta. rewrite data_range_flat. destruct (range_fold (flat_map (accumulate 0) ds) (0, 0)) as (A & B & D & E & F); [discriminate|].
  cbn [fst snd] in A, B, E, F. split; [split; assumption|]. split; [exact D|]. split; [destruct E as [E|E]|clear E; destruct F as [E|E]].
  - rewrite E. left. reflexivity.
  - right. exact E.
  - rewrite E. left. reflexivity.
  - right. exact E.
Qed.

(** ** drawing *)
Section Draw.
Variable C : Type.
Variable fade : C -> C.
Definition shade (d : Qc) (c : C) : C := if Qcltb d 0 then fade c else c.
Lemma draw_loop_ok data : forall cum styles, (length data <= length styles)%nat ->
  exists bs st', draw_loop C fade cum data styles = COk (bs, st', cum + Qcsum data) /\ map b_len bs = data /\ length st' = length styles
  /\ (forall j b, nth_error bs j = Some b -> b_left b = cum + Qcsum (firstn j data))
  /\ (forall j b c, nth_error bs j = Some b -> nth_error styles j = Some c -> b_colour b = shade (b_len b) c)
  /\ (forall j c, nth_error styles j = Some c -> nth_error st' j = Some (match nth_error data j with Some d => shade d c | None => c end)).
Proof.
  induction data as [|d data IH]; intros cum styles L; cbn [draw_loop].
  - exists [], styles. split; [cbn; rewrite Qcplus_0_r; reflexivity|]. split; [reflexivity|]. split; [reflexivity|].
    split; [intros [|j]; discriminate|]. split; [intros [|j]; discriminate|]. intros j c E. rewrite E. destruct j; reflexivity.
  - destruct styles as [|c styles]; cbn [length] in L; [lia|].
    destruct (IH (cum + d) styles) as (bs & st' & E & A & B & D & F & G); [lia|]. rewrite E.
    exists (Bar cum d (shade d c) :: bs), (shade d c :: st'). split; [|split; [|split; [|split; [|split]]]].
    + cbv zeta. fold (shade d c). rewrite Qcsum_cons. f_equal. f_equal. ring.
    + cbn [map b_len]. rewrite A. reflexivity.
    + cbn [length]. rewrite B. reflexivity.
    + intros [|j] b X; cbn [nth_error firstn] in *.
      * injection X as <-. cbn. ring.
      * rewrite (D _ _ X), Qcsum_cons. ring.
    + intros [|j] b c' X Y; cbn [nth_error] in *.
      * injection X as <-. injection Y as <-. reflexivity.
      * apply (F j); assumption.
    + intros [|j] c' X; cbn [nth_error] in *.
      * injection X as <-. reflexivity.
      * apply G, X.
Qed.
Lemma draw_loop_err data : forall cum styles, (length styles < length data)%nat -> draw_loop C fade cum data styles = CIndexError.
Proof.
  induction data as [|d data IH]; intros cum styles L; cbn [draw_loop length] in *; [lia|].
  destruct styles as [|c styles]; [reflexivity|]. cbn [length] in L. rewrite IH by lia. reflexivity.
Qed.
(** How many of the data sets have a negative [j]-th value *)
Definition negatives (j : nat) (ds : list (list Qc)) : nat :=
  length (filter (fun d => match nth_error d j with Some x => Qcltb x 0 | None => false end) ds).
Lemma iter_shift n (c : C) : Nat.iter n fade (fade c) = fade (Nat.iter n fade c).
Proof. induction n as [|n IH]; cbn; [reflexivity|]. f_equal. exact IH. Qed.
Lemma draw_panels_ok ds : forall styles, Forall (fun d => (length d <= length styles)%nat) ds ->
  exists ps, draw_panels C fade ds styles = COk ps /\ length ps = length ds /\
  forall i d p, nth_error ds i = Some d -> nth_error ps i = Some p ->
    map b_len (p_bars p) = d /\ p_marker p = Qcsum d /\
    (forall j b, nth_error (p_bars p) j = Some b -> b_left b = Qcsum (firstn j d)) /\
    (forall j b c, nth_error (p_bars p) j = Some b -> nth_error styles j = Some c ->
       b_colour b = Nat.iter (negatives j (firstn (S i) ds)) fade c).
Proof.
  induction ds as [|d ds IH]; intros styles L; cbn [draw_panels].
  - exists []. split; [reflexivity|]. split; [reflexivity|]. intros [|i]; discriminate.
  - apply Forall_cons_iff in L as [L Ls]. destruct (draw_loop_ok d 0 styles L) as (bs & st' & E & A & B & D & F & G). rewrite E.
    destruct (IH st') as (ps & E2 & Lp & H); [rewrite B; exact Ls|]. rewrite E2. eexists. split; [reflexivity|]. split; [cbn; rewrite Lp; reflexivity|].
    intros [|i] x p X Y; cbn [nth_error] in X, Y.
    + injection X as <-. injection Y as <-. cbn [p_bars p_marker]. split; [exact A|]. split; [ring|]. split.
      * intros j b Z. rewrite (D _ _ Z). ring.
      * intros j b c Z W. rewrite (F _ _ _ Z W). unfold negatives, shade. cbn [firstn filter].
        assert (nth_error d j = Some (b_len b)) as ->. { rewrite <- A, nth_error_map, Z. reflexivity. }
        destruct (Qcltb (b_len b) 0); reflexivity.
    + destruct (H i x p X Y) as (H1 & H2 & H3 & H4). split; [exact H1|]. split; [exact H2|]. split; [exact H3|].
      intros j b c Z W. rewrite (H4 j b _ Z (G j c W)). unfold negatives. rewrite (firstn_cons (S i)). cbn [filter].
      unfold shade. destruct (nth_error d j) as [v|] eqn:N; [|reflexivity]. destruct (Qcltb v 0); [|reflexivity].
      cbn [length]. cbn [Nat.iter]. apply iter_shift.
Qed.
Lemma draw_panels_err ds : forall styles, Exists (fun d => (length styles < length d)%nat) ds -> draw_panels C fade ds styles = CIndexError.
Proof.
  induction ds as [|d ds IH]; intros styles X; [inversion X|]. cbn [draw_panels].
  destruct (Nat.le_gt_cases (length d) (length styles)) as [L|L].
  - destruct (draw_loop_ok d 0 styles L) as (bs & st' & E & A & B & _). rewrite E. rewrite IH; [reflexivity|]. rewrite B.
    inversion X as [? ? Y|? ? Y]; subst; [lia|exact Y].
  - rewrite draw_loop_err by exact L. reflexivity.
Qed.
End Draw.

(** ** scales *)
Lemma all_same_spec x r : all_same (x :: r) = true <-> forall y, In y r -> y = x.
Proof.
  unfold all_same. rewrite forallb_forall. split; intros H y I.
  - specialize (H y I). destruct (eqb_spec x y); [congruence|discriminate].
  - rewrite (H y I). apply eqb_refl.
Qed.
Lemma map_id_mul (l : list Qc) : map (fun k => k * 1) l = l.
Proof. rewrite <- (map_id l) at 2. apply map_ext. intros. ring. Qed.
Lemma adjusted_eq x r ds : (forall y, In y (x :: r) -> 0 < y) -> length ds = length (x :: r) ->
  adjusted (x :: r) ds = map (fun ad => map (fun k => k * (lmax x r / fst ad)) (snd ad)) (combine (x :: r) ds).
Proof.
  intros P L. unfold adjusted. destruct (all_same (x :: r)) eqn:S.
  - rewrite all_same_spec in S. assert (M : lmax x r = x). { destruct (lmax_in x r) as [<-|I]; [reflexivity|]. apply S, I. }
    rewrite M. assert (X : forall y, In y (x :: r) -> x / y = 1).
    { intros y I. assert (y = x) as -> by (destruct I as [<-|I]; auto).
      specialize (P x (or_introl eq_refl)). unfold Qcdiv. apply Qcmult_inv_r. intros E. rewrite E in P. discriminate P. }
    assert (G : forall l ds, length ds = length l -> (forall y, In y l -> x / y = 1) ->
      ds = map (fun ad => map (fun k => k * (x / fst ad)) (snd ad)) (combine l ds)).
    { clear. induction l as [|y l IH]; intros [|d ds] L X; try discriminate; [reflexivity|].
      cbn [combine map fst snd]. rewrite X by (left; reflexivity). rewrite map_id_mul. f_equal. apply IH; [injection L; auto|intros; apply X; right; assumption]. }
    apply G; assumption.
  - apply map_ext_in. intros [a d] I. cbn [fst snd]. unfold adjust_one. destruct (eqb_spec a (lmax x r)) as [->|N]; [|reflexivity].
    assert (0 < lmax x r) by apply P, lmax_in. assert (E : lmax x r / lmax x r = 1).
    { unfold Qcdiv. apply Qcmult_inv_r. intros E. rewrite E in H. discriminate H. }
    rewrite E, map_id_mul. reflexivity.
Qed.
Lemma firstn_map {A B} (f : A -> B) n l : firstn n (map f l) = map f (firstn n l).
Proof. revert l. induction n as [|n IH]; intros [|x l]; cbn; [reflexivity..|]. rewrite IH. reflexivity. Qed.
Lemma sum_mul (c : Qc) l : Qcsum (map (fun k => k * c) l) = Qcsum l * c.
Proof. induction l as [|x l IH]; cbn [map]; [cbn; ring|]. rewrite !Qcsum_cons, IH. ring. Qed.
Lemma dget_nodup_in {V} (d : dict string V) k v : NoDup (map fst d) -> In (k, v) d -> dget k d = Some v.
Proof.
  induction d as [|[k' v'] d IH]; [intros _ []|]. cbn [map fst]. intros ND [E|I]; cbn [dget].
  - injection E as -> ->. rewrite eqb_refl. reflexivity.
  - apply NoDup_cons_iff in ND as [N ND]. destruct (eqb_spec k k') as [->|_]; [exfalso; apply N; apply in_map with (f := fst) in I; exact I|]. apply IH; assumption.
Qed.
Lemma firstn_S_nth {A} (l : list A) j x : nth_error l j = Some x -> firstn (S j) l = firstn j l ++ [x].
Proof. revert j. induction l as [|y l IH]; intros [|j]; cbn; try discriminate; [congruence|]. intros E. f_equal. apply IH, E. Qed.
Lemma Qcinv_pos (x : Qc) : 0 < x -> 0 < / x.
Proof.
  intros P. destruct (Qclt_le_dec 0 (/ x)) as [L|L]; [exact L|]. exfalso.
  assert (X : x * / x = 1) by (apply Qcmult_inv_r; intros Z; rewrite Z in P; apply (Qclt_not_eq _ _ P); reflexivity).
  assert (Y : / x * x <= 0 * x) by (apply Qcmult_le_compat_r; [exact L|apply Qclt_le_weak, P]).
  rewrite Qcmult_comm, X, Qcmult_0_l in Y. apply (Qcle_not_lt _ _ Y). reflexivity.
Qed.

(** C116: what the charts show.  /repo/antelope_reports/charts and contrib_query of /repo/lcatools/lcia_results.py. *)
From Coq Require Import QArith.Qcabs.
From Verif Require Import Num Base PyStr LciaModel LciaProofs LciaProps AutoRangeModel AutoRangeProps ChartModel ChartProofs QcLra.
Open Scope string_scope.
Open Scope list_scope.
Open Scope Qc_scope.
Open Scope list_scope.

(** * Querying contributions *)
(** The score of the component under a key; 0 if there is none *)
Definition score_at (r : lres) (k : string) : Qc := match dget k (r_scores r) with Some c => cum (r_scale r) c | None => 0 end.
Definition all_scores (r : lres) : list Qc := map (fun kc => cum (r_scale r) (snd kc)) (r_scores r).

(** For a list of stages: one score per stage, in order.  The query fails exactly when the total is zero and the stages do not add up to it. *)
Theorem C116_query_stages_partial : forall r l,
  let data := map (score_at r) l in
  (total r = 0 -> Qcsum data = 0 -> contrib_query r (Stages l) = COk data) /\
  (total r <> 0 -> contrib_query r (Stages l) = COk data) /\
  (total r = 0 -> Qcsum data <> 0 -> contrib_query r (Stages l) = CZeroDivisionError).
Proof.
  intros r l data. unfold contrib_query. change (contrib_data r (Stages l)) with data. split; [|split].
  - intros T S. rewrite T, S, isclose6_zero. reflexivity.
  - intros N. destruct (isclose6 (Qcsum data) (total r)); [reflexivity|]. destruct (eqb_spec (total r) 0); [congruence|reflexivity].
  - intros T N. rewrite T, isclose6_zero. destruct (eqb_spec (Qcsum data) 0); [congruence|]. reflexivity.
Qed.
(** Without stages: if every component's entity is its own key, exactly the scores of the components. *)
Theorem C116_query_all_partial : forall r, r_private r = false -> NoDup (map fst (r_scores r)) ->
  (forall k c, In (k, c) (r_scores r) -> c_entity c = EStr k) ->
  contrib_query r AllStages = COk (all_scores r) /\
  (has_nonzero r = COk true <-> exists v, In v (all_scores r) /\ v <> 0) /\
  (has_pos_neg r = COk true <-> (exists v, In v (all_scores r) /\ 0 < v) /\ (exists v, In v (all_scores r) /\ v < 0)).
Proof.
  intros r P ND K.
  assert (D : contrib_data r AllStages = all_scores r).
  { unfold contrib_data, all_scores. rewrite P. apply map_ext_in. intros [k c] I. cbn [snd]. rewrite (K k c I). cbn [by_entity]. unfold by_key.
    rewrite (dget_nodup_in _ _ _ ND I). reflexivity. }
  assert (Q : contrib_query r AllStages = COk (all_scores r)).
  { unfold contrib_query. rewrite D. change (Qcsum (all_scores r)) with (total r). destruct (isclose6 (total r) (total r)) eqn:X; [reflexivity|].
    destruct (eqb_spec (total r) 0) as [E|E]; [|reflexivity]. rewrite E, isclose6_zero in X. discriminate. }
  split; [exact Q|]. unfold has_nonzero, has_pos_neg. rewrite Q. split; split.
  - intros E. injection E as E. apply negb_true_iff in E. revert E. generalize (all_scores r). induction l as [|v l IH]; [discriminate|].
    cbn [map]. rewrite Qcsum_cons. destruct (Qc_eq_dec v 0) as [-> | N]; [|intros _; exists v; split; [left; reflexivity|exact N]].
    rewrite Qcabs_pos by discriminate. rewrite Qcplus_0_l. intros E. destruct (IH E) as (w & I & N). exists w. split; [right; exact I|exact N].
  - intros (v & I & N). f_equal. apply negb_true_iff. destruct (eqb_spec (Qcsum (map Qcabs (all_scores r))) 0) as [E|E]; [|reflexivity]. exfalso.
    pose proof (elem_le_sum (map Qcabs (all_scores r))) as H. specialize (H ltac:(intros y Y; apply in_map_iff in Y as (z & <- & _); apply Qcabs_nonneg)).
    specialize (H _ (in_map Qcabs _ _ I)). rewrite E in H. pose proof (abs_pos v N). qclra.
  - intros E. injection E as E. apply andb_true_iff in E as [A B]. apply existsb_exists in A as (v & I & A). apply existsb_exists in B as (w & J & B).
    apply ltb_true in A. apply ltb_true in B. split; [exists v|exists w]; auto.
  - intros [(v & I & A) (w & J & B)]. f_equal. apply andb_true_iff. split; apply existsb_exists; [exists v|exists w]; split; auto; apply ltb_true; assumption.
Qed.
(** Two scores that cancel: asking for one of them fails; and a result of fragment flows (whose entities are not their keys)
    counts as having no scores at all. *)
Definition ex_cancel : lres :=
  LRes 1 1 false "gwp" None [("a", Summ Own (EStr "a") 1 (Static (Q2Qc 2))); ("b", Summ Own (EStr "b") 1 (Static (Q2Qc (-2))))] [].
Definition ex_frags : lres :=
  LRes 1 1 false "gwp" None [("a", Summ Own (EObj 7) 1 (Static (Q2Qc 2))); ("b", Summ Own (EObj 8) 1 (Static (Q2Qc (-1))))] [].
Theorem C116_refuted_query : contrib_query ex_cancel (Stages ["a"]) = CZeroDivisionError
  /\ contrib_query ex_frags AllStages = COk [0; 0] /\ has_nonzero ex_frags = COk false /\ has_pos_neg ex_frags = COk false /\ total ex_frags = 1.
Proof. vm_compute. repeat split. Qed.
Lemma C116_query_witness : contrib_query ex_frags (Stages ["b"; "zz"]) = COk [Q2Qc (-1); 0] /\ has_pos_neg ex_cancel = COk true.
Proof. vm_compute. split; reflexivity. Qed.

(** * Waterfall charts *)
Definition bar_end {C} (b : bar C) : Qc := b_left b + b_len b.
(** The bars follow one another: each begins where the sum of the earlier ones ends *)
Definition chained {C} (bs : list (bar C)) (final : Qc) : Prop :=
  (forall j b, nth_error bs j = Some b -> b_left b = Qcsum (map b_len (firstn j bs))) /\ final = Qcsum (map b_len bs).
(** The bars and the marker of a panel show the result [r] multiplied by [M] for the stages [qs] *)
Definition shows {C} (qs : list string) (r : lres) (M : Qc) (p : panel C) : Prop :=
  chained (p_bars p) (p_marker p) /\
  (forall j q, nth_error qs j = Some q -> q <> "*" -> exists b, nth_error (p_bars p) j = Some b /\ b_len b = score_at r q * M) /\
  (length (p_bars p) = length qs \/ length (p_bars p) = S (length qs)) /\
  (In "*" qs -> length (p_bars p) = length qs /\ p_marker p = total r * M) /\
  (** the marker is at the total, or a remainder below 10 ppb of the extent of the bars is left out *)
  (p_marker p = total r * M \/
   length (p_bars p) = length qs /\ exists a b, In a (0 :: map bar_end (p_bars p)) /\ In b (0 :: map bar_end (p_bars p)) /\
     Qcabs (total r * M - p_marker p) * e8 <= b - a).
(** The first stages have a bar each, with the remainder left or not *)
Definition remainder (qs : list string) (w : wres) : Qc := snd (contrib_new (w_res w) (w_ar w) qs).

Lemma panel_data_cases qs w : exists data net, contrib_new (w_res w) (w_ar w) qs = (data, net) /\
  (panel_data qs w = data ++ [net] /\ has_net qs w = true \/ panel_data qs w = data /\ has_net qs w = false).
Proof.
  unfold panel_data, has_net. destruct (contrib_new (w_res w) (w_ar w) qs) as [data net]. exists data, net. split; [reflexivity|].
  destruct (keeps_net data net); auto.
Qed.
Lemma panel_data_length qs w : length (panel_data qs w) = (length qs + if has_net qs w then 1 else 0)%nat.
Proof.
  destruct (panel_data_cases qs w) as (data & net & E & H). destruct (C20_contributions _ _ _ _ _ E) as (L & _).
  destruct H as [[-> ->]|[-> ->]]; rewrite ?app_length, L; cbn; lia.
Qed.
Lemma nth_combine {A B} (l : list A) (m : list B) i a b : nth_error l i = Some a -> nth_error m i = Some b -> nth_error (combine l m) i = Some (a, b).
Proof. revert m i. induction l as [|x l IH]; intros [|y m] [|i]; cbn; try discriminate; [congruence|apply IH]. Qed.
Lemma nth_app_l {A} (l m : list A) i x : nth_error l i = Some x -> nth_error (l ++ m) i = Some x.
Proof. intros E. rewrite nth_error_app1; [exact E|]. apply nth_error_Some. congruence. Qed.
Lemma accumulate_mul c l : forall s, accumulate (s * c) (map (fun k => k * c) l) = map (fun k => k * c) (accumulate s l).
Proof. induction l as [|x l IH]; intros s; cbn [map accumulate]; [reflexivity|]. replace (s * c + x * c) with ((s + x) * c) by ring. rewrite IH. reflexivity. Qed.
Lemma bar_ends {C} (p : panel C) (d : list Qc) : map b_len (p_bars p) = d ->
  (forall j b, nth_error (p_bars p) j = Some b -> b_left b = Qcsum (firstn j d)) -> map bar_end (p_bars p) = accumulate 0 d.
Proof.
  intros L X. apply nth_error_ext. intros j. rewrite accumulate_nth, nth_error_map. destruct (Nat.ltb_spec j (length d)) as [H|H].
  - destruct (nth_error (p_bars p) j) as [b|] eqn:E.
    + cbn [option_map]. f_equal. unfold bar_end. rewrite (X _ _ E), Qcplus_0_l.
      assert (N : nth_error d j = Some (b_len b)) by (rewrite <- L, nth_error_map, E; reflexivity).
      rewrite (firstn_S_nth _ _ _ N), Qcsum_app, Qcsum_cons. cbn. ring.
    + apply nth_error_None in E. rewrite <- L, map_length in H. lia.
  - assert (nth_error (p_bars p) j = None) as -> by (apply nth_error_None; rewrite <- L, map_length in H; exact H). reflexivity.
Qed.
Lemma keeps_zero data : keeps_net data 0 = false.
Proof. unfold keeps_net. rewrite (Qcabs_pos 0) by discriminate. apply ltb_false. destruct (data_range_spec [data]) as [[A B] _]. qclra. Qed.
Lemma panel_shows {C} qs w M (p : panel C) : 0 < w_ar w -> 0 < M ->
  let d := map (fun k => k * (M / w_ar w)) (panel_data qs w) in
  map b_len (p_bars p) = d -> (forall j b, nth_error (p_bars p) j = Some b -> b_left b = Qcsum (firstn j d)) -> p_marker p = Qcsum d ->
  shows qs (w_res w) M p.
Proof.
  intros Px PM d Hb Hl Hm. set (c := M / w_ar w) in *.
  assert (Nx : w_ar w <> 0) by (intros E; rewrite E in Px; discriminate Px).
  assert (Ec : w_ar w * c = M) by (unfold c; field; exact Nx).
  assert (Pc : 0 < c). { unfold c. assert (0 < / w_ar w) by (apply Qcinv_pos; exact Px). unfold Qcdiv. revert PM H. generalize (/ w_ar w). intros. qcnra. }
  destruct (panel_data_cases qs w) as (data & net & E & H). destruct (C20_contributions _ _ _ _ _ E) as (L & Sum & Star & One).
  assert (Len : length (p_bars p) = length (panel_data qs w)) by (rewrite <- (map_length b_len), Hb; apply map_length).
  assert (Lp := panel_data_length qs w).
  split; [|split; [|split; [|split]]].
  - split; [|rewrite Hb; exact Hm]. intros j b X. rewrite (Hl _ _ X). rewrite <- Hb, firstn_map. reflexivity.
  - intros j q Q NQ. specialize (One j q Q NQ).
    assert (N : nth_error (panel_data qs w) j = Some (score_at (w_res w) q * w_ar w)).
    { unfold score_at. destruct (dget q (r_scores (w_res w))) eqn:G; rewrite ?Qcmult_0_l; destruct H as [[-> _]|[-> _]]; rewrite ?(nth_app_l _ [net] _ _ One); try exact One; reflexivity. }
    assert (N2 : nth_error (map b_len (p_bars p)) j = Some (score_at (w_res w) q * w_ar w * c)).
    { rewrite Hb. unfold d. rewrite nth_error_map, N. reflexivity. }
    rewrite nth_error_map in N2. destruct (nth_error (p_bars p) j) as [b|]; [|discriminate]. exists b. split; [reflexivity|].
    cbn in N2. injection N2 as ->. rewrite <- Qcmult_assoc, Ec. reflexivity.
  - rewrite Len, Lp. destruct (has_net qs w); [right|left]; lia.
  - intros I. rewrite (Star I) in *. unfold has_net in *. rewrite E, keeps_zero in *. split; [rewrite Len, Lp; lia|].
    destruct H as [[_ X]|[X _]]; [discriminate|]. rewrite Hm. unfold d. rewrite sum_mul, X. rewrite <- Ec, Qcmult_assoc. f_equal. rewrite <- Sum. ring.
  - destruct H as [[X Y]|[X Y]].
    + left. rewrite Hm. unfold d. rewrite sum_mul, X, Qcsum_app, Qcsum_cons, Qcsum_nil, <- Ec, Qcmult_assoc. f_equal. rewrite <- Sum. ring.
    + right. rewrite Y in Lp. split; [rewrite Len, Lp; lia|]. unfold has_net in Y. rewrite E in Y. unfold keeps_net in Y. apply ltb_false in Y.
      destruct (data_range_spec [data]) as (_ & _ & A & B). cbn [flat_map] in A, B. rewrite app_nil_r in A, B.
      exists (fst (data_range [data]) * c), (snd (data_range [data]) * c).
      assert (G : forall k, In k (0 :: accumulate 0 data) -> In (k * c) (0 :: map bar_end (p_bars p))).
      { intros k [<-|I]; [left; ring|right]. rewrite (bar_ends p d Hb Hl). unfold d. rewrite X. replace 0 with (0 * c) at 1 by ring.
        rewrite accumulate_mul. apply in_map with (f := fun k => k * c). exact I. }
      split; [apply G, A|]. split; [apply G, B|].
      assert (T : total (w_res w) * M - p_marker p = net * c).
      { rewrite Hm. unfold d. rewrite sum_mul, X, <- Ec, Qcmult_assoc, <- Sum. ring. }
      rewrite T, Qcabs_mult_pos by exact Pc. pose proof (Qcmult_le_compat_r _ _ c Y (Qclt_le_weak _ _ Pc)) as Z. clear - Z.
      revert Z. generalize (Qcabs net), (snd (data_range [data])), (fst (data_range [data])), e8, c. intros. qclra.
Qed.
Lemma waterfall_data ws qs x r : map w_ar ws = x :: r -> (forall w, In w ws -> 0 < w_ar w) ->
  forall i w, nth_error ws i = Some w ->
  nth_error (adjusted (map w_ar ws) (map (panel_data qs) ws)) i = Some (map (fun k => k * (lmax x r / w_ar w)) (panel_data qs w)).
Proof.
  intros E P i w N. rewrite E, adjusted_eq.
  - rewrite nth_error_map, (nth_combine _ _ i (w_ar w) (panel_data qs w)); [reflexivity| |rewrite nth_error_map, N; reflexivity].
    rewrite <- E, nth_error_map, N. reflexivity.
  - rewrite <- E. intros y I. apply in_map_iff in I as (v & <- & I). apply P, I.
  - rewrite <- E, !map_length. reflexivity.
Qed.
Lemma adjusted_length ars ds : length ds = length ars -> length (adjusted ars ds) = length ds.
Proof. intros L. unfold adjusted. destruct ars; [reflexivity|]. destruct (all_same _); [reflexivity|]. rewrite map_length, combine_length, L. lia. Qed.
Lemma adjusted_lengths ws qs : (forall w, In w ws -> 0 < w_ar w) -> forall i d, nth_error (adjusted (map w_ar ws) (map (panel_data qs) ws)) i = Some d ->
  exists w, nth_error ws i = Some w /\ length d = length (panel_data qs w).
Proof.
  intros P i d E. assert (L : (i < length ws)%nat).
  { rewrite <- (map_length (panel_data qs)), <- (adjusted_length (map w_ar ws)) by (rewrite !map_length; reflexivity). apply nth_error_Some. congruence. }
  destruct (nth_error ws i) as [w|] eqn:W; [|apply nth_error_None in W; lia]. exists w. split; [reflexivity|].
  destruct (map w_ar ws) as [|x r] eqn:X; [destruct ws; [destruct i|]; discriminate|]. rewrite <- X in E. rewrite (waterfall_data _ _ _ _ X P i w W) in E. injection E as <-. apply map_length.
Qed.

Section Waterfall.
Variable C : Type.
Variable fade : C -> C.
Variable colour : string -> C.
Variable net_name : string.
(** Charting positive scales ([10 ** n]) always succeeds when the remainder may be shown.  All results are drawn at one scale [M], one of theirs, with the
    unit of a result of that scale; each panel shows its result; bars are labelled with their stages. *)
Theorem C116_waterfall : forall qs ws, ws <> [] -> (forall w, In w ws -> 0 < w_ar w) ->
  exists ch M, waterfall C fade colour true net_name qs ws = COk ch /\
  (exists w0, In w0 ws /\ w_ar w0 = M /\ ch_unit ch = w_unit w0 /\ forall w, In w ws -> w_ar w <= M) /\
  (ch_labels ch = qs \/ ch_labels ch = qs ++ [net_name]) /\
  length (ch_panels ch) = length ws /\
  forall i w p, nth_error ws i = Some w -> nth_error (ch_panels ch) i = Some p ->
    shows qs (w_res w) M p /\ (length (p_bars p) <= length (ch_labels ch))%nat.
Proof.
  intros qs ws N P. unfold waterfall. cbv zeta. rewrite andb_true_r.
  set (labels := if existsb (has_net qs) ws then qs ++ [net_name] else qs).
  destruct (map w_ar ws) as [|x r] eqn:X; [destruct ws; [congruence|discriminate]|]. rewrite <- X.
  destruct (draw_panels_ok C fade (adjusted (map w_ar ws) (map (panel_data qs) ws)) (map colour labels)) as (ps & E & Lp & H).
  { apply Forall_forall. intros d I. apply In_nth_error in I as [i I]. destruct (adjusted_lengths ws qs P i d I) as (w & W & ->).
    rewrite map_length, panel_data_length. unfold labels. destruct (existsb (has_net qs) ws) eqn:Z.
    - rewrite app_length. cbn. destruct (has_net qs w); lia.
    - destruct (has_net qs w) eqn:Y; [|lia]. assert (existsb (has_net qs) ws = true); [|congruence]. apply existsb_exists. exists w. split; [eapply nth_error_In; exact W|exact Y]. }
  rewrite E. exists (Chart ps labels (data_range (map (panel_data qs) ws)) (shown_unit ws)), (lmax x r). cbn [ch_panels ch_labels ch_unit].
  assert (Mx : forall w, In w ws -> w_ar w <= lmax x r). { intros w I. apply lmax_ge. rewrite <- X. apply in_map, I. }
  assert (PM : 0 < lmax x r). { pose proof (lmax_in x r) as I. rewrite <- X in I. apply in_map_iff in I as (w & <- & I). apply P, I. }
  split; [reflexivity|]. split; [|split; [|split]].
  - unfold shown_unit. rewrite X. rewrite <- X. destruct (all_same (map w_ar ws)) eqn:S.
    + destruct (rev ws) as [|w0 t] eqn:R; [apply (f_equal (@rev wres)) in R; rewrite rev_involutive in R; cbn in R; congruence|].
      assert (I0 : In w0 ws) by (apply in_rev; rewrite R; left; reflexivity). exists w0. split; [exact I0|]. split; [|split; [reflexivity|exact Mx]].
      rewrite X in S. rewrite all_same_spec in S. assert (A : forall y, In y (x :: r) -> y = x) by (intros y [<-|I]; auto).
      rewrite (A (lmax x r) (lmax_in x r)). apply A. rewrite <- X. apply in_map, I0.
    + destruct (find (fun w => eqb (w_ar w) (lmax x r)) ws) as [w0|] eqn:F.
      * apply find_some in F as [I F]. destruct (eqb_spec (w_ar w0) (lmax x r)); [|discriminate]. exists w0. auto.
      * exfalso. pose proof (lmax_in x r) as I. rewrite <- X in I. apply in_map_iff in I as (w & Ew & I). pose proof (find_none _ _ F w I) as Z. cbv beta in Z.
        rewrite Ew, eqb_refl in Z. discriminate.
  - unfold labels. destruct (existsb (has_net qs) ws); auto.
  - rewrite Lp, adjusted_length, map_length by (rewrite !map_length; reflexivity). reflexivity.
  - intros i w p W Q. pose proof (waterfall_data ws qs x r X P i w W) as D. destruct (H i _ p D Q) as (H1 & H2 & H3 & _). split.
    + apply panel_shows; auto. apply P. eapply nth_error_In, W.
    + rewrite <- (map_length b_len), H1, map_length, panel_data_length. unfold labels. destruct (existsb (has_net qs) ws) eqn:Z.
      * rewrite app_length. cbn. destruct (has_net qs w); lia.
      * destruct (has_net qs w) eqn:Y; [|lia]. assert (existsb (has_net qs) ws = true); [|congruence]. apply existsb_exists. exists w. split; [eapply nth_error_In; exact W|exact Y].
Qed.
(** The remainder of a result is visible: more than 10 ppb of the extent of the bars of the stages *)
Definition visible_remainder (qs : list string) (w : wres) : Prop :=
  let ends := 0 :: accumulate 0 (fst (contrib_new (w_res w) (w_ar w) qs)) in
  forall a b, In a ends -> In b ends -> b - a < Qcabs (remainder qs w) * e8.
Lemma has_net_visible qs w : has_net qs w = true <-> visible_remainder qs w.
Proof.
  unfold has_net, visible_remainder, remainder, keeps_net. destruct (contrib_new (w_res w) (w_ar w) qs) as [data net]. cbn [fst snd]. rewrite ltb_true.
  destruct (data_range_spec [data]) as ((Z1 & Z2) & A & B & D). cbn [flat_map] in *. rewrite app_nil_r in *. split; intros H.
  - intros a b I J. assert (forall k, In k (0 :: accumulate 0 data) -> fst (data_range [data]) <= k <= snd (data_range [data])) as K.
    { intros k [<-|I']; [split; assumption|apply A, I']. }
    destruct (K a I), (K b J). qclra.
  - apply H; assumption.
Qed.
(** With [include_net=False] the chart is drawn exactly when no result has a visible remainder. *)
Theorem C116_include_net_false_partial : forall qs ws, ws <> [] -> (forall w, In w ws -> 0 < w_ar w) ->
  ((forall w, In w ws -> ~ visible_remainder qs w) -> waterfall C fade colour false net_name qs ws = waterfall C fade colour true net_name qs ws) /\
  ((exists w, In w ws /\ visible_remainder qs w) -> waterfall C fade colour false net_name qs ws = CIndexError).
Proof.
  intros qs ws N P. split.
  - intros H. unfold waterfall. cbv zeta. assert (existsb (has_net qs) ws = false) as ->; [|reflexivity].
    apply not_true_is_false. intros X. apply existsb_exists in X as (w & I & X). apply (H w I), has_net_visible, X.
  - intros (w & I & V). apply has_net_visible in V. unfold waterfall. cbv zeta. rewrite andb_false_r.
    rewrite draw_panels_err; [reflexivity|]. apply Exists_exists. apply In_nth_error in I as [i W].
    destruct (map w_ar ws) as [|x r] eqn:X; [destruct ws; [congruence|discriminate]|]. pose proof (waterfall_data ws qs x r X P i w W) as D. rewrite X in D.
    eexists. split; [eapply nth_error_In, D|]. rewrite !map_length, panel_data_length, V. lia.
Qed.
(** If all results have the same scale, the chart's span contains every bar, and its ends are reached. *)
Theorem C116_span_partial : forall qs ws ch, (forall w w', In w ws -> In w' ws -> w_ar w = w_ar w') ->
  waterfall C fade colour true net_name qs ws = COk ch ->
  (forall p b, In p (ch_panels ch) -> In b (p_bars p) -> fst (ch_span ch) <= b_left b <= snd (ch_span ch) /\ fst (ch_span ch) <= bar_end b <= snd (ch_span ch)) /\
  (forall e, e = fst (ch_span ch) \/ e = snd (ch_span ch) -> e = 0 \/ exists p b, In p (ch_panels ch) /\ In b (p_bars p) /\ bar_end b = e).
Proof.
  intros qs ws ch Same E. unfold waterfall in E. cbv zeta in E.
  assert (A : adjusted (map w_ar ws) (map (panel_data qs) ws) = map (panel_data qs) ws).
  { unfold adjusted. destruct (map w_ar ws) as [|x r] eqn:X; [reflexivity|]. assert (all_same (x :: r) = true) as ->; [|reflexivity]. apply all_same_spec.
    destruct ws as [|w0 ws]; [discriminate|]. cbn [map] in X. injection X as <- <-. intros y I. apply in_map_iff in I as (w & <- & I). apply Same; [right; exact I|left; reflexivity]. }
  rewrite A in E. set (ds := map (panel_data qs) ws) in *.
  set (styles := map colour _) in E.
  destruct (Forall_Exists_dec (fun d : list Qc => (length d <= length styles)%nat) (fun d => Compare_dec.le_dec (length d) (length styles)) ds) as [F|F].
  2:{ rewrite draw_panels_err in E; [discriminate|]. eapply Exists_impl; [|exact F]. cbn. intros; lia. }
  destruct (draw_panels_ok C fade ds styles F) as (ps & E2 & Lp & H). rewrite E2 in E. injection E as <-. cbn [ch_panels ch_span].
  destruct (data_range_spec ds) as ((Z1 & Z2) & R & B1 & B2).
  assert (Ends : forall p, In p ps -> exists d, In d ds /\ map b_len (p_bars p) = d /\ map bar_end (p_bars p) = accumulate 0 d /\
            forall j b, nth_error (p_bars p) j = Some b -> b_left b = Qcsum (firstn j d)).
  { intros p I. apply In_nth_error in I as [i I]. assert (L : (i < length ds)%nat) by (rewrite <- Lp; apply nth_error_Some; congruence).
    destruct (nth_error ds i) as [d|] eqn:D; [|apply nth_error_None in D; lia]. destruct (H i d p D I) as (H1 & H2 & H3 & _). exists d.
    split; [eapply nth_error_In, D|]. split; [exact H1|]. split; [apply bar_ends; assumption|exact H3]. }
  split.
  - intros p b I J. destruct (Ends p I) as (d & Id & H1 & H2 & H3).
    assert (K : forall k, In k (accumulate 0 d) -> fst (data_range ds) <= k <= snd (data_range ds)).
    { intros k Ik. apply R. apply in_flat_map. exists d. split; assumption. }
    split; [|apply K; rewrite <- H2; apply in_map, J]. apply In_nth_error in J as [j J]. rewrite (H3 j b J).
    destruct j as [|j]; [split; assumption|]. apply K, accumulate_in. exists j. split; [|reflexivity].
    rewrite <- H1, map_length. assert (S j < length (p_bars p))%nat by (apply nth_error_Some; congruence). lia.
  - intros e De. assert (I : In e (0 :: flat_map (accumulate 0) ds)) by (destruct De as [-> | ->]; assumption).
    destruct I as [<-|I]; [left; reflexivity|right]. apply in_flat_map in I as (d & Id & Ie). apply In_nth_error in Id as [i D].
    assert (L : (i < length ps)%nat) by (rewrite Lp; apply nth_error_Some; congruence).
    destruct (nth_error ps i) as [p|] eqn:Q; [|apply nth_error_None in Q; lia]. destruct (H i d p D Q) as (H1 & _ & H3 & _).
    rewrite <- (bar_ends p d H1 H3) in Ie. apply in_map_iff in Ie as (b & <- & Ib). exists p, b. split; [eapply nth_error_In, Q|]. split; [exact Ib|reflexivity].
Qed.
(** The colour of a bar: that of its label, faded once for every panel so far, this one included, whose bar at that place is negative. *)
Definition neg_at (j : nat) (p : panel C) : bool := match nth_error (p_bars p) j with Some b => Qcltb (b_len b) 0 | None => false end.
Theorem C116_colours_partial : forall inc qs ws ch, waterfall C fade colour inc net_name qs ws = COk ch ->
  forall i p j b, nth_error (ch_panels ch) i = Some p -> nth_error (p_bars p) j = Some b ->
  exists label, nth_error (ch_labels ch) j = Some label /\
  b_colour b = Nat.iter (length (filter (neg_at j) (firstn (S i) (ch_panels ch)))) fade (colour label).
Proof.
  intros inc qs ws ch E. unfold waterfall in E. cbv zeta in E. set (ds := adjusted _ _) in E. set (labels := if _ && _ then _ else _) in E.
  destruct (Forall_Exists_dec (fun d : list Qc => (length d <= length (map colour labels))%nat) (fun d => Compare_dec.le_dec (length d) (length (map colour labels))) ds) as [F|F].
  2:{ rewrite draw_panels_err in E; [discriminate|]. eapply Exists_impl; [|exact F]. cbn. intros; lia. }
  destruct (draw_panels_ok C fade ds (map colour labels) F) as (ps & E2 & Lp & H). rewrite E2 in E. injection E as <-. cbn [ch_panels ch_labels].
  intros i p j b Q B. assert (L : (i < length ds)%nat) by (rewrite <- Lp; apply nth_error_Some; congruence).
  destruct (nth_error ds i) as [d|] eqn:D; [|apply nth_error_None in D; lia]. destruct (H i d p D Q) as (H1 & _ & _ & H4).
  assert (J : (j < length labels)%nat).
  { apply nth_error_In in D. rewrite Forall_forall in F. specialize (F d D). rewrite map_length in F. assert (j < length (p_bars p))%nat by (apply nth_error_Some; congruence).
    rewrite <- H1, map_length in F. lia. }
  destruct (nth_error labels j) as [label|] eqn:Lb; [|apply nth_error_None in Lb; lia]. exists label. split; [reflexivity|].
  rewrite (H4 j b (colour label) B) by (rewrite nth_error_map, Lb; reflexivity). f_equal. unfold negatives.
  assert (G : forall n, (n <= length ds)%nat -> length (filter (fun d0 => match nth_error d0 j with Some x => Qcltb x 0 | None => false end) (firstn n ds)) = length (filter (neg_at j) (firstn n ps))).
  { assert (S1 : forall k d0 p0, nth_error ds k = Some d0 -> nth_error ps k = Some p0 -> (match nth_error d0 j with Some x => Qcltb x 0 | None => false end) = neg_at j p0).
    { intros k d0 p0 X Y. destruct (H k d0 p0 X Y) as (<- & _). rewrite nth_error_map. unfold neg_at. destruct (nth_error (p_bars p0) j); reflexivity. }
    revert S1 Lp. clear. revert ps. induction ds as [|d ds IH]; intros [|p ps] S1 L n Hn; try discriminate; [destruct n; reflexivity|].
    destruct n as [|n]; [reflexivity|]. cbn [firstn filter]. rewrite (S1 0%nat d p eq_refl eq_refl). cbn [length] in *.
    specialize (IH ps (fun k => S1 (S k)) ltac:(lia) n ltac:(lia)). destruct (neg_at j p); cbn [length]; rewrite IH; reflexivity. }
  apply G. lia.
Qed.
End Waterfall.

(** With different scales the span no longer contains the bars, and a colour once faded stays faded for the results that follow. *)
Definition one_comp (v : Qc) : lres := LRes 1 1 false "gwp" None [("a", Summ Own (EStr "a") 1 (Static v))] [].
Definition sample_fade (n : nat) : nat := S n.
Theorem C116_refuted_waterfall :
  (exists ch p b, waterfall nat sample_fade (fun _ => 0%nat) true "remainder" ["a"] [WRes (one_comp (Q2Qc 2)) 1 "kg"; WRes (one_comp (Q2Qc (2 # 100))) (Q2Qc 1000) "g"] = COk ch
     /\ In p (ch_panels ch) /\ In b (p_bars p) /\ snd (ch_span ch) < bar_end b) /\
  (exists ch p b, waterfall nat sample_fade (fun _ => 0%nat) true "remainder" ["a"] [WRes (one_comp (Q2Qc (-2))) 1 "kg"; WRes (one_comp (Q2Qc 1)) 1 "kg"] = COk ch
     /\ nth_error (ch_panels ch) 1 = Some p /\ nth_error (p_bars p) 0 = Some b /\ 0 < b_len b /\ b_colour b = sample_fade 0) /\
  waterfall nat sample_fade (fun _ => 0%nat) false "remainder" [] [WRes (one_comp (Q2Qc 2)) 1 "kg"] = CIndexError.
Proof.
  split; [|split].
  - eexists. eexists. eexists. split; [vm_compute; reflexivity|]. split; [left; reflexivity|]. split; [left; reflexivity|]. vm_compute. reflexivity.
  - eexists. eexists. eexists. split; [vm_compute; reflexivity|]. split; [reflexivity|]. split; [reflexivity|]. split; vm_compute; reflexivity.
  - vm_compute. reflexivity.
Qed.
Lemma C116_waterfall_witness : exists ch, waterfall nat sample_fade (fun _ => 0%nat) true "remainder" ["b"; "zz"]
    [WRes ex_frags 1 "kg"; WRes ex_cancel (Q2Qc 1000) "g"] = COk ch /\
  ch_labels ch = ["b"; "zz"; "remainder"] /\ ch_unit ch = "g" /\
  map (fun p => (map (fun b => (b_left b, b_len b)) (p_bars p), p_marker p)) (ch_panels ch) =
    [([(0, Q2Qc (-1000)); (Q2Qc (-1000), 0); (Q2Qc (-1000), Q2Qc 2000)], Q2Qc 1000); ([(0, Q2Qc (-2000)); (Q2Qc (-2000), 0); (Q2Qc (-2000), Q2Qc 2000)], 0)].
Proof. eexists. split; [vm_compute; reflexivity|]. vm_compute. repeat split. Qed.

(** * Positive-negative charts *)
Lemma filter_sum_split l : Qcsum (filter (fun v => Qcltb 0 v) l) + Qcsum (filter (fun v => Qcltb v 0) l) = Qcsum l.
Proof.
  induction l as [|v l IH]; [reflexivity|]. cbn [filter]. ltb 0 v; ltb v 0; rewrite ?Qcsum_cons, <- IH; try ring.
  - exfalso. qclra.
  - assert (v = 0) as ->; [|ring]. apply Qcle_antisym; qclra.
Qed.
Lemma posneg_eq l : posneg l = (poss l, negs l).
Proof.
  unfold posneg, poss, negs. assert (G : forall b, fold_left posneg_step l b = (fst b + Qcsum (filter (fun v => Qcltb 0 v) l), snd b + Qcsum (filter (fun v => Qcltb v 0) l))).
  { induction l as [|v l IH]; intros [p n]; cbn [fold_left filter fst snd].
    - rewrite Qcsum_nil, !Qcplus_0_r. reflexivity.
    - rewrite IH. unfold posneg_step. cbn [fst snd]. ltb 0 v; ltb v 0; cbn [fst snd]; rewrite ?Qcsum_cons; f_equal; try ring.
      + exfalso. qclra.
      + assert (v = 0) as ->; [|ring]. apply Qcle_antisym; qclra. }
  rewrite G. cbn [fst snd]. f_equal; ring.
Qed.
Lemma poss_nonneg l : 0 <= poss l.
Proof. unfold poss. induction l as [|v l IH]; [discriminate|]. cbn [filter]. ltb 0 v; rewrite ?Qcsum_cons; qclra. Qed.
Lemma negs_nonpos l : negs l <= 0.
Proof. unfold negs. induction l as [|v l IH]; [discriminate|]. cbn [filter]. ltb v 0; rewrite ?Qcsum_cons; qclra. Qed.
Lemma negs_zero l : negs l = 0 <-> forall v, In v l -> 0 <= v.
Proof.
  induction l as [|v l IH]; [split; [intros _ ? []|reflexivity]|]. unfold negs. cbn [filter]. pose proof (negs_nonpos l) as N. unfold negs in N, IH. ltb v 0.
  - rewrite Qcsum_cons. split; [intros E; exfalso; qclra|]. intros H. specialize (H v (or_introl eq_refl)). exfalso. qclra.
  - rewrite IH. split; intros H w.
    + intros [<-|I]; [qclra|apply H, I].
    + intros I. apply H. right. exact I.
Qed.
Lemma call_vals_ok rs : (forall r, In r rs -> r_private r = false) -> call_vals rs = COk (map all_scores rs).
Proof.
  induction rs as [|r rs IH]; intros H; [reflexivity|]. cbn [call_vals map]. unfold pn_vals. rewrite (H r (or_introl eq_refl)).
  rewrite IH by (intros; apply H; right; assumption). reflexivity.
Qed.
Lemma positions_length bw pns : forall ptr, length (positions bw ptr pns) = length pns.
Proof. induction pns as [|[p n] pns IH]; intros ptr; cbn; [reflexivity|]. rewrite IH. reflexivity. Qed.
Lemma pn_chart_nth bw ar rs ps : (forall r, In r rs -> r_private r = false) -> pn_chart bw ar rs = COk ps ->
  length ps = length rs /\ forall i r p, nth_error rs i = Some r -> nth_error ps i = Some p ->
    exists x, nth_error (positions bw 0 (map posneg (map all_scores rs))) i = Some x /\ p = pn_draw bw ar x (poss (all_scores r), negs (all_scores r)).
Proof.
  intros H E. unfold pn_chart in E. rewrite (call_vals_ok rs H) in E. cbv zeta in E. injection E as <-.
  split; [rewrite map_length, combine_length, positions_length, !map_length; lia|].
  intros i r p R P. assert (L : (i < length (positions bw 0 (map posneg (map all_scores rs))))%nat).
  { rewrite positions_length, !map_length. apply nth_error_Some. congruence. }
  destruct (nth_error (positions bw 0 (map posneg (map all_scores rs))) i) as [x|] eqn:X; [|apply nth_error_None in X; lia]. exists x. split; [reflexivity|].
  rewrite nth_error_map, (nth_combine _ _ i x (posneg (all_scores r))) in P; [|exact X|rewrite !nth_error_map, R; reflexivity].
  cbn [option_map] in P. injection P as <-. cbn [fst snd]. rewrite posneg_eq. reflexivity.
Qed.
(** Every result is shown: a bar upwards for its positive scores and, if it has negative ones, a bar downwards from there that ends at the total, which is marked. *)
Theorem C116_posneg : forall bw ar rs, 0 < ar -> (forall r, In r rs -> r_private r = false) ->
  exists ps, pn_chart bw ar rs = COk ps /\ length ps = length rs /\
  forall i r p, nth_error rs i = Some r -> nth_error ps i = Some p ->
    q_bottom (pn_pos p) = 0 /\ q_h (pn_pos p) = Qcsum (filter (fun v => Qcltb 0 v) (all_scores r)) * ar /\
    (pn_neg p = None <-> forall v, In v (all_scores r) -> 0 <= v) /\
    match pn_neg p with
    | None => pn_total p = None /\ q_h (pn_pos p) = total r * ar
    | Some n => q_bottom n = q_h (pn_pos p) /\ q_h n < 0 /\ q_h n = Qcsum (filter (fun v => Qcltb v 0) (all_scores r)) * ar /\
                q_bottom n + q_h n = total r * ar /\ exists x, pn_total p = Some (x, total r * ar)
    end.
Proof.
  intros bw ar rs Pa H. destruct (pn_chart bw ar rs) as [ps| | |] eqn:E;
    [|unfold pn_chart in E; rewrite (call_vals_ok rs H) in E; discriminate..].
  exists ps. split; [reflexivity|]. destruct (pn_chart_nth bw ar rs ps H E) as [L G]. split; [exact L|].
  intros i r p R P. destruct (G i r p R P) as (x & _ & ->). unfold pn_draw. cbn [fst snd].
  assert (T : poss (all_scores r) + negs (all_scores r) = total r) by apply filter_sum_split.
  assert (Z : negs (all_scores r) * ar = 0 <-> negs (all_scores r) = 0).
  { split; [|intros ->; ring]. intros X. destruct (Qcmult_integral _ _ X) as [Y|Y]; [exact Y|]. rewrite Y in Pa. discriminate. }
  destruct (eqb_spec (negs (all_scores r) * ar) 0) as [N|N]; cbn [pn_pos pn_neg pn_total q_bottom q_h].
  - split; [reflexivity|]. split; [reflexivity|]. split; [rewrite <- negs_zero, <- Z; tauto|]. split; [reflexivity|].
    apply Z in N. rewrite N, Qcplus_0_r in T. rewrite T. reflexivity.
  - split; [reflexivity|]. split; [reflexivity|]. split; [rewrite <- negs_zero, <- Z; split; [discriminate|tauto]|]. split; [reflexivity|].
    assert (NN : negs (all_scores r) * ar < 0).
    { pose proof (negs_nonpos (all_scores r)) as M. pose proof (Qcmult_le_compat_r _ _ ar M (Qclt_le_weak _ _ Pa)) as M2. rewrite Qcmult_0_l in M2.
      apply Qcle_lt_or_eq in M2 as [M2|M2]; [exact M2|contradiction]. }
    split; [exact NN|]. split; [reflexivity|]. rewrite <- T. split; [ring|]. eexists. f_equal. f_equal. ring.
Qed.
(** [a] lies to the left of [b] *)
Definition left_of (a b : rect) : Prop := q_x a + half * q_w a < q_x b - half * q_w b.
Definition rects (p : pnpanel) : list rect := pn_pos p :: match pn_neg p with Some n => [n] | None => [] end.
Lemma positions_gap bw : 0 < bw -> Q2Qc 2 * bw < 1 -> forall pns ptr i j xi xj pni, (i < j)%nat -> nth_error pns i = Some pni ->
  nth_error (positions bw ptr pns) i = Some xi -> nth_error (positions bw ptr pns) j = Some xj ->
  xi + (if eqb (snd pni) 0 then 1 - Q2Qc 2 * bw else 1) <= xj.
Proof.
  intros P B. assert (Low : forall pns ptr j x, nth_error (positions bw ptr pns) j = Some x -> ptr <= x).
  { induction pns as [|[p n] pns IH]; intros ptr [|j] x; cbn [positions nth_error]; try discriminate.
    - intros E. injection E as <-. qclra.
    - intros E. apply IH in E. destruct (eqb n 0); qclra. }
  induction pns as [|[p n] pns IH]; intros ptr [|i] [|j] xi xj pni Lt; cbn [positions nth_error]; try discriminate; try lia.
  - intros E1 E2 E3. injection E1 as <-. injection E2 as <-. apply Low in E3. cbn [snd]. revert E3. destruct (eqb n 0); intros E3; qclra.
  - intros E1 E2 E3. refine (IH _ i j xi xj pni _ E1 E2 E3). lia.
Qed.
Theorem C116_posneg_layout : forall bw ar rs ps, ar <> 0 -> (forall r, In r rs -> r_private r = false) -> pn_chart bw ar rs = COk ps ->
  0 < bw -> Q2Qc (285 # 100) * bw < 1 ->
  (forall i j p q, (i < j)%nat -> nth_error ps i = Some p -> nth_error ps j = Some q ->
    (forall a b, In a (rects p) -> In b (rects q) -> left_of a b) /\
    (forall x v b, pn_total p = Some (x, v) -> In b (rects q) -> x < q_x b - half * q_w b)) /\
  (forall p n, In p ps -> pn_neg p = Some n -> left_of (pn_pos p) n /\ exists x v, pn_total p = Some (x, v) /\ q_x n + half * q_w n < x).
Proof.
  intros bw ar rs ps Na H E P B. destruct (pn_chart_nth bw ar rs ps H E) as [L G]. split.
  - intros i j p q Lt Ip Iq. assert (Lj : (j < length ps)%nat) by (apply nth_error_Some; congruence).
    destruct (nth_error rs i) as [r|] eqn:R; [|apply nth_error_None in R; lia]. destruct (nth_error rs j) as [r'|] eqn:R'; [|apply nth_error_None in R'; lia].
    destruct (G i r p R Ip) as (x & X & ->). destruct (G j r' q R' Iq) as (y & Y & ->).
    pose proof (positions_gap bw P ltac:(qclra) (map posneg (map all_scores rs)) 0 i j x y (posneg (all_scores r)) Lt ltac:(rewrite !nth_error_map, R; reflexivity) X Y) as Gap.
    rewrite posneg_eq in Gap. cbn [snd] in Gap. unfold pn_draw. cbn [fst snd].
    assert (Z : negs (all_scores r) * ar = 0 <-> negs (all_scores r) = 0).
    { split; [|intros ->; ring]. intros K. destruct (Qcmult_integral _ _ K) as [K2|K2]; [exact K2|contradiction]. }
    assert (Right : forall b, In b (rects (if eqb (negs (all_scores r') * ar) 0 then PN (Rect y (w_pos bw) 0 (poss (all_scores r') * ar)) None None
                else PN (Rect y (w_pos bw) 0 (poss (all_scores r') * ar)) (Some (Rect (y + bw) (w_neg bw) (poss (all_scores r') * ar) (negs (all_scores r') * ar)))
                     (Some (y + bw + bw, poss (all_scores r') * ar + negs (all_scores r') * ar)))) -> y - Q2Qc (425 # 1000) * bw <= q_x b - half * q_w b).
    { intros b I. destruct (eqb (negs (all_scores r') * ar) 0); cbn in I.
      - destruct I as [<-|[]]. cbn [q_x q_w]. unfold half, w_pos. qclra.
      - destruct I as [<-|[<-|[]]]; cbn [q_x q_w]; unfold half, w_pos, w_neg; qclra. }
    split.
    + intros a b Ia Ib. apply Right in Ib. unfold left_of. clear Right. revert Ib. generalize (q_x b - half * q_w b). intros eb Ib.
      destruct (eqb_spec (negs (all_scores r) * ar) 0) as [N|N]; revert Gap; destruct (eqb_spec (negs (all_scores r)) 0) as [N'|N']; intros Gap; try tauto; cbn in Ia.
      * destruct Ia as [<-|[]]. cbn [q_x q_w]. unfold half, w_pos. qclra.
      * destruct Ia as [<-|[<-|[]]]; cbn [q_x q_w]; unfold half, w_pos, w_neg; qclra.
    + intros z v b Et Ib. apply Right in Ib. clear Right. revert Ib. generalize (q_x b - half * q_w b). intros eb Ib.
      destruct (eqb_spec (negs (all_scores r) * ar) 0) as [N|N]; revert Gap; destruct (eqb_spec (negs (all_scores r)) 0) as [N'|N']; intros Gap; try tauto; cbn in Et; [discriminate|].
      injection Et as <- <-. qclra.
  - intros p n Ip En. apply In_nth_error in Ip as [i Ip]. assert (Li : (i < length ps)%nat) by (apply nth_error_Some; congruence).
    destruct (nth_error rs i) as [r|] eqn:R; [|apply nth_error_None in R; lia]. destruct (G i r p R Ip) as (x & X & ->). unfold pn_draw in *. cbn [fst snd] in *.
    destruct (eqb (negs (all_scores r) * ar) 0); [discriminate|]. cbn in En. injection En as <-. cbn. unfold left_of. cbn [q_x q_w].
    split; [unfold half, w_pos, w_neg; qclra|]. eexists. eexists. split; [reflexivity|]. unfold half, w_neg. qclra.
Qed.
(** The bound on the bar width is needed, and private results cannot be drawn. *)
Theorem C116_refuted_posneg : (exists p q, pn_chart (Q2Qc (2 # 5)) 1 [one_comp 1; one_comp 1] = COk [p; q] /\
    q_x (pn_pos q) - half * q_w (pn_pos q) < q_x (pn_pos p) + half * q_w (pn_pos p)) /\
  pn_chart (Q2Qc (28 # 100)) 1 [LRes 1 1 true "gwp" None [("a", Summ Own (EStr "a") 1 (Static 1))] []] = CKeyError.
Proof. split; [|vm_compute; reflexivity]. eexists. eexists. split; [vm_compute; reflexivity|]. vm_compute. reflexivity. Qed.
Lemma C116_posneg_witness : exists p q, pn_chart (Q2Qc (28 # 100)) (Q2Qc 1000) [ex_frags; one_comp 1] = COk [p; q] /\
  match pn_total p with Some (x, v) => x = Q2Qc (56 # 100) /\ v = Q2Qc 1000 | None => False end /\ q_h (pn_pos p) = Q2Qc 2000 /\ q_x (pn_pos q) = 1.
Proof. eexists. eexists. split; [vm_compute; reflexivity|]. cbn. repeat split; apply Qc_is_canon; vm_compute; reflexivity. Qed.

(** * Stacked bars *)
Lemma stack_loop_spec py ny data : forall l t,
  let '(bs, l', t') := stack_loop py ny l t data in
  l' = l + negs data /\ t' = t + poss data /\ map hb_len bs = map Qcabs (filter (fun v => negb (eqb v 0)) data) /\
  (forall a v b, data = a ++ v :: b -> 0 < v -> In (HBar py (t + poss a) v) bs) /\
  (forall a v b, data = a ++ v :: b -> v < 0 -> In (HBar ny (l + negs a + v) (- v)) bs) /\
  (forall h, In h bs -> (hb_y h = py \/ hb_y h = ny) /\ l + negs data <= hb_left h /\ hb_left h + hb_len h <= t + poss data \/ 0 < l \/ t < 0).
Proof.
  induction data as [|d data IH]; intros l t; cbn [stack_loop].
  - unfold negs, poss. cbn. split; [ring|]. split; [ring|]. split; [reflexivity|]. split; [intros [|]; discriminate|]. split; [intros [|]; discriminate|]. intros ? [].
  - assert (P0 := poss_nonneg data). assert (N0 := negs_nonpos data). ltb 0 d; [|ltb d 0].
    + specialize (IH l (t + d)). destruct (stack_loop py ny l (t + d) data) as [[bs l'] t']. destruct IH as (A & B & D & E & F & G).
      assert (Hp : poss (d :: data) = d + poss data) by (unfold poss; cbn [filter]; rewrite (proj2 (ltb_true 0 d)) by assumption; reflexivity).
      assert (Hn : negs (d :: data) = negs data) by (unfold negs; cbn [filter]; rewrite (proj2 (ltb_false d 0)) by qclra; reflexivity).
      rewrite Hp, Hn. split; [exact A|]. split; [rewrite B; ring|]. split; [|split; [|split]].
      * cbn [map hb_len filter]. destruct (eqb_spec d 0) as [->|Nz]; [discriminate|]. cbn [negb map]. rewrite Qcabs_pos by qclra. rewrite D. reflexivity.
      * intros [|x a] v b Eq Pv; cbn [app] in Eq; injection Eq as <- Eq.
        -- left. unfold poss. cbn. f_equal. ring.
        -- right. specialize (E a v b Eq Pv). assert (poss (d :: a) = d + poss a) as -> by (unfold poss; cbn [filter]; rewrite (proj2 (ltb_true 0 d)) by assumption; reflexivity).
           rewrite Qcplus_assoc. exact E.
      * intros [|x a] v b Eq Pv; cbn [app] in Eq; injection Eq as <- Eq; [exfalso; qclra|]. right. specialize (F a v b Eq Pv).
        assert (negs (d :: a) = negs a) as -> by (unfold negs; cbn [filter]; rewrite (proj2 (ltb_false d 0)) by qclra; reflexivity). exact F.
      * intros h [<-|I]; cbn [hb_y hb_left hb_len].
        -- destruct (Qclt_le_dec t 0); [right; right; assumption|]. destruct (Qclt_le_dec 0 l); [right; left; assumption|]. left. split; [left; reflexivity|]. split; qclra.
        -- destruct (G h I) as [(G1 & G2 & G3)|[G1|G1]]; [left; split; [exact G1|split; qclra]|right; left; exact G1|right; right; qclra].
    + specialize (IH (l + d) t). destruct (stack_loop py ny (l + d) t data) as [[bs l'] t']. destruct IH as (A & B & D & E & F & G).
      assert (Hn : negs (d :: data) = d + negs data) by (unfold negs; cbn [filter]; rewrite (proj2 (ltb_true d 0)) by assumption; reflexivity).
      assert (Hp : poss (d :: data) = poss data) by (unfold poss; cbn [filter]; rewrite (proj2 (ltb_false 0 d)) by qclra; reflexivity).
      assert (Ab : Qcabs d = - d) by (apply Qcabs_neg; qclra).
      rewrite Hp, Hn. split; [rewrite A; ring|]. split; [exact B|]. split; [|split; [|split]].
      * cbn [map hb_len filter]. destruct (eqb_spec d 0) as [->|Nz]; [discriminate|]. cbn [negb map]. rewrite D. reflexivity.
      * intros [|x a] v b Eq Pv; cbn [app] in Eq; injection Eq as <- Eq; [exfalso; qclra|]. right. specialize (E a v b Eq Pv).
        assert (poss (d :: a) = poss a) as -> by (unfold poss; cbn [filter]; rewrite (proj2 (ltb_false 0 d)) by qclra; reflexivity). exact E.
      * intros [|x a] v b Eq Pv; cbn [app] in Eq; injection Eq as <- Eq.
        -- left. rewrite Ab. unfold negs. cbn. f_equal. ring.
        -- right. specialize (F a v b Eq Pv). assert (negs (d :: a) = d + negs a) as -> by (unfold negs; cbn [filter]; rewrite (proj2 (ltb_true d 0)) by assumption; reflexivity).
           replace (l + (d + negs a) + v) with (l + d + negs a + v) by ring. exact F.
      * intros h [<-|I]; cbn [hb_y hb_left hb_len].
        -- destruct (Qclt_le_dec t 0); [right; right; assumption|]. destruct (Qclt_le_dec 0 l); [right; left; assumption|]. left. split; [right; reflexivity|]. rewrite Ab. split; qclra.
        -- destruct (G h I) as [(G1 & G2 & G3)|[G1|G1]]; [left; split; [exact G1|split; qclra]|right; left; qclra|right; right; exact G1].
    + assert (d = 0) as -> by (apply Qcle_antisym; qclra).
      specialize (IH l t). destruct (stack_loop py ny l t data) as [[bs l'] t']. destruct IH as (A & B & D & E & F & G).
      change (poss (0 :: data)) with (poss data). change (negs (0 :: data)) with (negs data).
      split; [exact A|]. split; [exact B|]. split; [exact D|]. split; [|split; [|exact G]].
      * intros [|x a] v b Eq Pv; cbn [app] in Eq; injection Eq as <- Eq; [discriminate|]. change (poss (0 :: a)) with (poss a). apply (E a v b Eq Pv).
      * intros [|x a] v b Eq Pv; cbn [app] in Eq; injection Eq as <- Eq; [discriminate|]. change (negs (0 :: a)) with (negs a). apply (F a v b Eq Pv).
Qed.
Lemma poss_zero l : poss l = 0 <-> forall v, In v l -> v <= 0.
Proof.
  induction l as [|v l IH]; [split; [intros _ ? []|reflexivity]|]. unfold poss. cbn [filter]. pose proof (poss_nonneg l) as N. unfold poss in N, IH. ltb 0 v.
  - rewrite Qcsum_cons. split; [intros E; exfalso; qclra|]. intros H. specialize (H v (or_introl eq_refl)). exfalso. qclra.
  - rewrite IH. split; intros H w.
    + intros [<-|I]; [qclra|apply H, I].
    + intros I. apply H. right. exact I.
Qed.
Lemma has_pos l : poss l <> 0 -> exists v, In v l /\ 0 < v.
Proof. unfold poss. induction l as [|v l IH]; [intros H; exfalso; apply H; reflexivity|]. cbn [filter]. ltb 0 v; [intros _; exists v; split; [left; reflexivity|assumption]|]. intros H. destruct (IH H) as (w & I & P). exists w. split; [right; exact I|exact P]. Qed.
Lemma has_neg l : negs l <> 0 -> exists v, In v l /\ v < 0.
Proof. unfold negs. induction l as [|v l IH]; [intros H; exfalso; apply H; reflexivity|]. cbn [filter]. ltb v 0; [intros _; exists v; split; [left; reflexivity|assumption]|]. intros H. destruct (IH H) as (w & I & P). exists w. split; [right; exact I|exact P]. Qed.
(** The bars of one data set: every positive value is a bar that starts where the earlier positive ones end, every negative one a bar that ends where the
    earlier negative ones do; zeros are not drawn.  With values of both signs the two stacks are apart and the net value is marked. *)
Definition stacked (d : list Qc) (py ny : Qc) (bs : list hbar) (m : option (Qc * Qc)) : Prop :=
  map hb_len bs = map Qcabs (filter (fun v => negb (eqb v 0)) d) /\
  (forall a v b, d = a ++ v :: b -> 0 < v -> In (HBar py (Qcsum (filter (fun w => Qcltb 0 w) a)) v) bs) /\
  (forall a v b, d = a ++ v :: b -> v < 0 -> In (HBar ny (Qcsum (filter (fun w => Qcltb w 0) a) + v) (- v)) bs) /\
  (forall h, In h bs -> (hb_y h = py \/ hb_y h = ny) /\ Qcsum (filter (fun w => Qcltb w 0) d) <= hb_left h /\ hb_left h + hb_len h <= Qcsum (filter (fun w => Qcltb 0 w) d)) /\
  ((exists v, In v d /\ 0 < v) /\ (exists v, In v d /\ v < 0) -> ny = py - 1 /\ exists y, (y = py \/ y = ny) /\ m = Some (Qcsum d, y)) /\
  (~ ((exists v, In v d /\ 0 < v) /\ (exists v, In v d /\ v < 0)) -> m = None).
Lemma one_bar_stacked py d : let '(bs, m, btm) := one_bar py (py - 1) d in
  (exists ny, stacked d py ny bs m) /\ btm <= py /\ (forall h, In h bs -> hb_y h <= py /\ btm + Q2Qc (55 # 100) <= hb_y h).
Proof.
  unfold one_bar. cbv zeta.
  assert (T : poss d + negs d = Qcsum d) by apply filter_sum_split.
  assert (Pz : poss d = 0 -> ~ exists v, In v d /\ 0 < v). { intros E (v & I & P). rewrite poss_zero in E. specialize (E v I). qclra. }
  assert (Nz : negs d = 0 -> ~ exists v, In v d /\ v < 0). { intros E (v & I & P). rewrite negs_zero in E. specialize (E v I). qclra. }
  assert (G : forall ny, (ny = py \/ ny = py - 1) -> forall m,
     ((exists v, In v d /\ 0 < v) /\ (exists v, In v d /\ v < 0) -> ny = py - 1 /\ exists y, (y = py \/ y = ny) /\ m = Some (Qcsum d, y)) ->
     (~ ((exists v, In v d /\ 0 < v) /\ (exists v, In v d /\ v < 0)) -> m = None) ->
     let '(bs, _, _) := stack_loop py ny 0 0 d in (exists ny, stacked d py ny bs m) /\ ny - Q2Qc (55 # 100) <= py /\
        (forall h, In h bs -> hb_y h <= py /\ ny - Q2Qc (55 # 100) + Q2Qc (55 # 100) <= hb_y h)).
  { intros ny Hny m M1 M2. pose proof (stack_loop_spec py ny d 0 0) as S. destruct (stack_loop py ny 0 0 d) as [[bs l'] t']. destruct S as (_ & _ & S1 & S2 & S3 & S4).
    assert (S5 : forall h, In h bs -> (hb_y h = py \/ hb_y h = ny) /\ negs d <= hb_left h /\ hb_left h + hb_len h <= poss d).
    { intros h I. destruct (S4 h I) as [S|[S|S]]; [|discriminate S..]. rewrite !Qcplus_0_l in S. exact S. }
    split; [|split].
    - exists ny. split; [exact S1|]. split; [|split; [|split; [|split; [exact M1|exact M2]]]].
      + intros a v b E P. specialize (S2 a v b E P). rewrite Qcplus_0_l in S2. exact S2.
      + intros a v b E P. specialize (S3 a v b E P). rewrite Qcplus_0_l in S3. exact S3.
      + exact S5.
    - destruct Hny as [-> | ->]; qclra.
    - intros h I. destruct (S5 h I) as [[-> | ->] _]; destruct Hny as [-> | ->]; split; qclra. }
  destruct (eqb_spec (poss d) 0) as [Ep|Ep]; destruct (eqb_spec (negs d) 0) as [En|En]; cbn [andb negb].
  - split; [|split; [qclra|intros ? []]]. exists py. specialize (G py (or_introl eq_refl) None ltac:(intros [X _]; exfalso; apply (Pz Ep X)) (fun _ => eq_refl)).
    pose proof (stack_loop_spec py py d 0 0) as S. destruct (stack_loop py py 0 0 d) as [[bs l'] t']. destruct S as (_ & _ & S1 & _).
    assert (bs = []) as ->; [|]. 
    { assert (filter (fun v => negb (eqb v 0)) d = []) as F; [|rewrite F in S1; destruct bs; [reflexivity|discriminate]].
      rewrite poss_zero in Ep. rewrite negs_zero in En. destruct (filter (fun v => negb (eqb v 0)) d) as [|v l] eqn:F; [reflexivity|].
      assert (I : In v (filter (fun v => negb (eqb v 0)) d)) by (rewrite F; left; reflexivity). apply filter_In in I as [I Hv].
      assert (v = 0) as -> by (apply Qcle_antisym; auto). discriminate. }
    destruct G as [[ny G] _]. destruct G as (G1 & G2 & G3 & G4 & G5 & G6). split; [exact G1|]. split; [exact G2|]. split; [intros a v b E P; destruct (G3 a v b E P)|].
    split; [intros ? []|]. split; [|exact G6]. intros [X _]. exfalso. apply (Pz Ep X).
  - specialize (G py (or_introl eq_refl) None ltac:(intros [X _]; exfalso; apply (Pz Ep X)) (fun _ => eq_refl)).
    destruct (stack_loop py py 0 0 d) as [[bs l'] t']. exact G.
  - specialize (G py (or_introl eq_refl) None ltac:(intros [_ X]; exfalso; apply (Nz En X)) (fun _ => eq_refl)).
    destruct (stack_loop py py 0 0 d) as [[bs l'] t']. exact G.
  - specialize (G (py - 1) (or_intror eq_refl) (Some (poss d + negs d, if Qcltb 0 (poss d + negs d) then py - 1 else py))).
    destruct (stack_loop py (py - 1) 0 0 d) as [[bs l'] t']. apply G.
    + intros _. split; [reflexivity|]. rewrite T. eexists. split; [|reflexivity]. destruct (Qcltb 0 (Qcsum d)); auto.
    + intros X. exfalso. apply X. split; [apply has_pos, Ep|apply has_neg, En].
Qed.
Theorem C116_stack_bars : forall series,
  length (stack_bars series) = length series /\
  (forall i d bs m, nth_error series i = Some d -> nth_error (stack_bars series) i = Some (bs, m) -> exists py ny, stacked d py ny bs m) /\
  (** data sets are drawn one below the other *)
  (forall i j bs m bs' m' h h', (i < j)%nat -> nth_error (stack_bars series) i = Some (bs, m) -> nth_error (stack_bars series) j = Some (bs', m') ->
     In h bs -> In h' bs' -> hb_y h' + half < hb_y h - half).
Proof.
  intros series. unfold stack_bars. generalize (Q2Qc (55 # 100)) at 1 2 3 4.
  assert (Low : forall series py i bs m h, nth_error (stack_from py series) i = Some (bs, m) -> In h bs -> hb_y h <= py).
  { induction series0 as [|d s IH]; intros py [|i] bs m h; cbn [stack_from nth_error]; try discriminate.
    - pose proof (one_bar_stacked py d) as S. destruct (one_bar py (py - 1) d) as [[bs0 m0] btm]. destruct S as (_ & _ & S). cbn [nth_error]. intros E. injection E as <- <-. intros I. apply S, I.
    - pose proof (one_bar_stacked py d) as S. destruct (one_bar py (py - 1) d) as [[bs0 m0] btm]. destruct S as (_ & S & _). cbn [nth_error]. intros E I.
      specialize (IH _ _ _ _ _ E I). unfold bar_skip in IH. qclra. }
  induction series as [|d s IH]; intros py; cbn [stack_from].
  - split; [reflexivity|]. split; [intros [|i]; discriminate|]. intros [|i] [|j]; intros; try lia; discriminate.
  - pose proof (one_bar_stacked py d) as S. destruct (one_bar py (py - 1) d) as [[bs0 m0] btm]. destruct S as ([ny S1] & S2 & S3).
    destruct (IH (btm - bar_skip)) as (I1 & I2 & I3). split; [cbn; rewrite I1; reflexivity|]. split.
    + intros [|i] d' bs m; cbn [nth_error]; [|apply I2]. intros E1 E2. injection E1 as <-. injection E2 as <- <-. exists py, ny. exact S1.
    + intros [|i] [|j] bs m bs' m' h h' Lt; cbn [nth_error]; try lia.
      * intros E1 E2 Ih Ih'. injection E1 as <- <-. apply (Low _ _ _ _ _ h' E2) in Ih'. destruct (S3 h Ih) as [_ S4]. unfold bar_skip in Ih'. unfold half. qclra.
      * intros E1 E2 Ih Ih'. refine (I3 i j _ _ _ _ h h' _ E1 E2 Ih Ih'). lia.
Qed.
(** The horizontal extent of the axes contains every bar, and is no wider than it must be. *)
Lemma extent_fold series : forall b, let r := fold_left extent_step series b in
  fst r <= fst b /\ snd b <= snd r /\ (forall d, In d series -> fst r <= negs d /\ poss d <= snd r) /\
  (fst r = fst b \/ exists d, In d series /\ fst r = negs d) /\ (snd r = snd b \/ exists d, In d series /\ snd r = poss d).
Proof.
  induction series as [|d s IH]; intros b; cbn [fold_left]; cbv zeta.
  - split; [qclra|]. split; [qclra|]. split; [intros ? []|]. auto.
  - destruct (IH (extent_step b d)) as (A & B & D & E & F).
    assert (X : fst (extent_step b d) <= fst b /\ fst (extent_step b d) <= negs d /\ snd b <= snd (extent_step b d) /\ poss d <= snd (extent_step b d)).
    { unfold extent_step. cbn [fst snd]. ltb (negs d) (fst b); ltb (snd b) (poss d); repeat split; qclra. }
    destruct X as (X1 & X2 & X3 & X4). split; [qclra|]. split; [qclra|]. split; [intros e [<-|I]; [split; qclra|apply D, I]|]. split.
    + destruct E as [E|(e & I & E)]; [|right; exists e; split; [right; exact I|exact E]]. rewrite E. unfold extent_step. cbn [fst]. destruct (Qcltb (negs d) (fst b)); [right; exists d; split; [left|]; reflexivity|left; reflexivity].
    + destruct F as [E'|(e & I & E')]; [|right; exists e; split; [right; exact I|exact E']]. rewrite E'. unfold extent_step. cbn [snd]. destruct (Qcltb (snd b) (poss d)); [right; exists d; split; [left|]; reflexivity|left; reflexivity].
Qed.
Theorem C116_stack_extent : forall series,
  (forall i bs m h, nth_error (stack_bars series) i = Some (bs, m) -> In h bs -> fst (extent series) <= hb_left h /\ hb_left h + hb_len h <= snd (extent series)) /\
  (fst (extent series) = 0 \/ exists d, In d series /\ fst (extent series) = Qcsum (filter (fun w => Qcltb w 0) d)) /\
  (snd (extent series) = 0 \/ exists d, In d series /\ snd (extent series) = Qcsum (filter (fun w => Qcltb 0 w) d)).
Proof.
  intros series. destruct (extent_fold series (0, 0)) as (_ & _ & A & B & D). fold (extent series) in A, B, D. split; [|split; assumption].
  intros i bs m h E I. destruct (C116_stack_bars series) as (L & H & _). assert (Li : (i < length series)%nat) by (rewrite <- L; apply nth_error_Some; congruence).
  destruct (nth_error series i) as [d|] eqn:N; [|apply nth_error_None in N; lia]. destruct (H i d bs m N E) as (py & ny & (_ & _ & _ & S & _)). destruct (S h I) as (_ & S1 & S2).
  apply nth_error_In in N. destruct (A d N) as [A1 A2]. unfold negs, poss in A1, A2. split; qclra.
Qed.
Lemma C116_stack_witness : exists bs m, nth_error (stack_bars [[]; [Q2Qc 3; 0; Q2Qc (-1); Q2Qc 2]]) 1 = Some (bs, m) /\
  map (fun h => (this (hb_left h), this (hb_len h))) bs = [(0, 3); (-(1), 1); (3, 2)]%Q /\ match m with Some (v, _) => v = Q2Qc 4 | None => False end.
Proof. eexists. eexists. split; [vm_compute; reflexivity|]. vm_compute. split; reflexivity. Qed.
Print Assumptions C116_query_stages_partial.
Print Assumptions C116_query_all_partial.
Print Assumptions C116_refuted_query.
Print Assumptions C116_waterfall.
Print Assumptions C116_include_net_false_partial.
Print Assumptions C116_span_partial.
Print Assumptions C116_colours_partial.
Print Assumptions C116_refuted_waterfall.
Print Assumptions C116_posneg.
Print Assumptions C116_posneg_layout.
Print Assumptions C116_refuted_posneg.
Print Assumptions C116_stack_bars.
Print Assumptions C116_stack_extent.

(** C116: the numbers behind the charts: /repo/lcatools/lcia_results.py 727-748 (contrib_query) and /repo/antelope_reports/charts
    (waterfall.py, pos_neg.py, combi.py, base.py).  What is modelled is what is drawn: rectangles and markers in data coordinates, and
    the colour of each bar.  Texts, tick labels and figure geometry in inches are not.  Numbers are exact rationals (Num.v). *)
From Coq Require Import QArith.Qcabs.
From Verif Require Import Num Base PyStr LciaModel AutoRangeModel.
Open Scope string_scope.
Open Scope list_scope.
Open Scope Qc_scope.
Open Scope list_scope.

Definition qmax (a b : Qc) : Qc := if Qcltb a b then b else a.
Definition qmin (a b : Qc) : Qc := if Qcltb b a then b else a.
(** [max(xs)], [min(xs)] of a non-empty list *)
Fixpoint lmax (x : Qc) (xs : list Qc) : Qc := match xs with [] => x | y :: r => qmax x (lmax y r) end.
Fixpoint lmin (x : Qc) (xs : list Qc) : Qc := match xs with [] => x | y :: r => qmin x (lmin y r) end.

(** ** contrib_query, lcia_results.py:727-748 *)
Inductive cret (A : Type) := COk (a : A) | CZeroDivisionError | CIndexError | CKeyError.
Arguments COk {A} a. Arguments CZeroDivisionError {A}. Arguments CIndexError {A}. Arguments CKeyError {A}.
Inductive stages := AllStages | Star | Stages (l : list string).
(** [math.isclose(a, b, rel_tol=1e-6)] *)
Definition isclose6 (a b : Qc) : bool := negb (Qcltb (Q2Qc (1 # 1000000) * qmax (Qcabs a) (Qcabs b)) (Qcabs (a - b))).
(** A stage given by name, 740-744; the entities of [component_entities()], 659-662, are looked up as if they were keys *)
Definition by_key (r : lres) (k : string) : Qc := match dget k (r_scores r) with Some c => cum (r_scale r) c | None => 0 end.
Definition by_entity (r : lres) (e : entity) : Qc := match e with EStr k => by_key r k | _ => 0 end.
Definition contrib_data (r : lres) (s : stages) : list Qc :=
  match s with
  | AllStages => if r_private r then [0] else map (fun kc => by_entity r (c_entity (snd kc))) (r_scores r)
  | Star => [total r]
  | Stages l => map (by_key r) l
  end.
(** 745-748: the message divides by the total *)
Definition contrib_query (r : lres) (s : stages) : cret (list Qc) :=
  let data := contrib_data r s in
  match s with
  | Star => COk data
  | _ => if isclose6 (Qcsum data) (total r) then COk data else if eqb (total r) 0 then CZeroDivisionError else COk data
  end.
(** [has_nonzero], base.py:100-102; [has_pos_neg], 105-119 *)
Definition has_nonzero (r : lres) : cret bool :=
  match contrib_query r AllStages with
  | COk data => COk (negb (eqb (Qcsum (map Qcabs data)) 0))
  | CZeroDivisionError => CZeroDivisionError | CIndexError => CIndexError | CKeyError => CKeyError
  end.
Definition has_pos_neg (r : lres) : cret bool :=
  match contrib_query r AllStages with
  | COk data => COk (existsb (fun k => Qcltb 0 k) data && existsb (fun k => Qcltb k 0) data)
  | CZeroDivisionError => CZeroDivisionError | CIndexError => CIndexError | CKeyError => CKeyError
  end.

(** ** Waterfall chart *)
(** [itertools.accumulate] *)
Fixpoint accumulate (cum : Qc) (l : list Qc) : list Qc := match l with [] => [] | x :: r => (cum + x) :: accumulate (cum + x) r end.
(** [_data_range], waterfall.py:47-56 *)
Definition range_step (b : Qc * Qc) (k : Qc) : Qc * Qc :=
  let mx := if Qcltb (snd b) k then k else snd b in
  let mn := if Qcltb k (fst b) then k else fst b in (mn, mx).
Definition data_range (d : list (list Qc)) : Qc * Qc := fold_left (fun b data => fold_left range_step (accumulate 0 data) b) d (0, 0).
(** A result as the chart sees it: the result, and [res.autorange] and [res.unit()] after the query (150-153) *)
Record wres := WRes { w_res : lres; w_ar : Qc; w_unit : string }.
Definition e8 : Qc := Q2Qc 100000000.
(** The data of one result, 149-160: the remainder is appended if it exceeds 10 ppb of the span *)
Definition keeps_net (data : list Qc) (net : Qc) : bool := let s := data_range [data] in Qcltb (snd s - fst s) (Qcabs net * e8).
Definition panel_data (qs : list string) (w : wres) : list Qc :=
  let '(data, net) := contrib_new (w_res w) (w_ar w) qs in if keeps_net data net then data ++ [net] else data.
Definition has_net (qs : list string) (w : wres) : bool :=
  let '(data, net) := contrib_new (w_res w) (w_ar w) qs in keeps_net data net.
(** [_adjust_autorange], 76-83: the first of the largest scales is the common one *)
Definition adjust_one (m : Qc) (x : Qc) (d : list Qc) : list Qc := if eqb x m then d else map (fun k => k * (m / x)) d.
(** entries with the same scale as the maximum are multiplied by m/x = 1, or left alone when they are the first: the same *)
Definition all_same (ars : list Qc) : bool := match ars with [] => true | x :: r => forallb (eqb x) r end.
Definition adjusted (ars : list Qc) (ds : list (list Qc)) : list (list Qc) :=
  match ars with
  | [] => ds
  | x :: r => if all_same ars then ds else map (fun ad => adjust_one (lmax x r) (fst ad) (snd ad)) (combine ars ds)
  end.
(** The unit shown: that of the last result (153), or of the first with the largest scale (79) *)
Definition shown_unit (ws : list wres) : string :=
  let ars := map w_ar ws in
  match ars with
  | [] => ""
  | x :: r => if all_same ars then match rev ws with w :: _ => w_unit w | [] => "" end
              else match find (fun w => eqb (w_ar w) (lmax x r)) ws with Some w => w_unit w | None => "" end
  end.

Section Colours.
(** Colours, and [_fade_color], 31-33 *)
Variable C : Type.
Variable fade : C -> C.
(** One bar: its left end, its (signed) length and its colour *)
Record bar := Bar { b_left : Qc; b_len : Qc; b_colour : C }.
(** The loop of [_waterfall_horiz], 333-408: [styles[i]] is a dict that is shared by all panels; line 340 overwrites its colour *)
Fixpoint draw_loop (cum : Qc) (data : list Qc) (styles : list C) : cret (list bar * list C * Qc) :=
  match data with
  | [] => COk ([], styles, cum)
  | d :: r => match styles with
              | [] => CIndexError
              | c :: cs => let c' := if Qcltb d 0 then fade c else c in
                           match draw_loop (cum + d) r cs with
                           | COk (bs, cs', m) => COk (Bar cum d c' :: bs, c' :: cs', m)
                           | CZeroDivisionError => CZeroDivisionError | CIndexError => CIndexError | CKeyError => CKeyError
                           end
              end
  end.
(** A panel: its bars and the position of the marker (419-422) *)
Record panel := Panel { p_bars : list bar; p_marker : Qc }.
(** [_waterfall_staging_horiz], 246-301: one panel per result, with the same list of styles *)
Fixpoint draw_panels (ds : list (list Qc)) (styles : list C) : cret (list panel) :=
  match ds with
  | [] => COk []
  | d :: r => match draw_loop 0 d styles with
              | COk (bs, styles', m) =>
                  match draw_panels r styles' with
                  | COk ps => COk (Panel bs m :: ps)
                  | CZeroDivisionError => CZeroDivisionError | CIndexError => CIndexError | CKeyError => CKeyError
                  end
              | CZeroDivisionError => CZeroDivisionError | CIndexError => CIndexError | CKeyError => CKeyError
              end
  end.
(** The chart: panels, stage labels, [_span] and unit *)
Record chart := Chart { ch_panels : list panel; ch_labels : list string; ch_span : Qc * Qc; ch_unit : string }.
(** [WaterfallChart(results, stages=..., include_net=...)], 85-180.  [colour] is [_stage_style(stage)['color']], 64-75;
    the remainder label is added only when [include_net] (162-168), the data always (158-160). *)
Definition waterfall (colour : string -> C) (include_net : bool) (net_name : string) (qs : list string) (ws : list wres) : cret chart :=
  let data := map (panel_data qs) ws in
  let flag := existsb (has_net qs) ws in
  let labels := if flag && include_net then qs ++ [net_name] else qs in
  match draw_panels (adjusted (map w_ar ws) data) (map colour labels) with
  | COk ps => COk (Chart ps labels (data_range data) (shown_unit ws))
  | CZeroDivisionError => CZeroDivisionError | CIndexError => CIndexError | CKeyError => CKeyError
  end.
End Colours.
Arguments Bar {C}. Arguments b_left {C}. Arguments b_len {C}. Arguments b_colour {C}.
Arguments Panel {C}. Arguments p_bars {C}. Arguments p_marker {C}.
Arguments Chart {C}. Arguments ch_panels {C}. Arguments ch_labels {C}. Arguments ch_span {C}. Arguments ch_unit {C}.

(** ** Positive-negative chart, pos_neg.py *)
(** [_pos], [_neg] of one result, 75-82, for the values of its components *)
Definition posneg_step (pn : Qc * Qc) (v : Qc) : Qc * Qc := if Qcltb 0 v then (fst pn + v, snd pn) else (fst pn, snd pn + v).
Definition posneg (vals : list Qc) : Qc * Qc := fold_left posneg_step vals (0, 0).
(** Lines 77-78: the values under [keys()]; a private result has the key None, which no component matches unless the
    text "None" begins one of its keys (490-508) *)
Definition pn_vals (r : lres) : cret (list Qc) :=
  if r_private r then
    match find (fun kc => String.prefix "None" (fst kc)) (r_scores r) with Some (_, c) => COk [cum (r_scale r) c] | None => CKeyError end
  else COk (map (fun kc => cum (r_scale r) (snd kc)) (r_scores r)).
(** The horizontal positions, 73, 86-91 *)
Fixpoint positions (bw ptr : Qc) (pns : list (Qc * Qc)) : list Qc :=
  match pns with
  | [] => []
  | (_, neg) :: r => ptr :: positions bw ((if eqb neg 0 then ptr else ptr + Q2Qc 2 * bw) + (1 - Q2Qc 2 * bw)) r
  end.
(** A rectangle: centre and width on the x axis, bottom and (signed) height *)
Record rect := Rect { q_x : Qc; q_w : Qc; q_bottom : Qc; q_h : Qc }.
Record pnpanel := PN { pn_pos : rect; pn_neg : option rect; pn_total : option (Qc * Qc) }.
(** [_pos_neg_vert], 140-168 *)
Definition w_pos (bw : Qc) : Qc := Q2Qc (85 # 100) * bw.
Definition w_neg (bw : Qc) : Qc := Q2Qc (62 # 100) * bw.
Definition pn_draw (bw ar x : Qc) (pn : Qc * Qc) : pnpanel :=
  let pos := fst pn * ar in let neg := snd pn * ar in
  if eqb neg 0 then PN (Rect x (w_pos bw) 0 pos) None None
  else PN (Rect x (w_pos bw) 0 pos) (Some (Rect (x + bw) (w_neg bw) pos neg)) (Some (x + bw + bw, pos + neg)).
Fixpoint call_vals (rs : list lres) : cret (list (list Qc)) :=
  match rs with
  | [] => COk []
  | r :: rest => match pn_vals r with
                 | COk v => match call_vals rest with COk vs => COk (v :: vs) | e => e end
                 | CZeroDivisionError => CZeroDivisionError | CIndexError => CIndexError | CKeyError => CKeyError
                 end
  end.
(** [PosNegChart(args)], 41-135 with [horiz=False]; [ar] is [_ar_scale] (95-101), computed from [_span] (93) *)
Definition pn_span (pns : list (Qc * Qc)) : Qc * Qc :=
  match pns with [] => (0, 0) | (p, n) :: r => (lmin n (map snd r), lmax p (map fst r)) end.
Definition pn_chart (bw ar : Qc) (rs : list lres) : cret (list pnpanel) :=
  match call_vals rs with
  | COk vs => let pns := map posneg vs in
              COk (map (fun xp => pn_draw bw ar (fst xp) (snd xp)) (combine (positions bw 0 pns) pns))
  | CZeroDivisionError => CZeroDivisionError | CIndexError => CIndexError | CKeyError => CKeyError
  end.

(** ** Stacked bars, combi.py *)
(** A horizontal bar of height 1: vertical centre, left end and length *)
Record hbar := HBar { hb_y : Qc; hb_left : Qc; hb_len : Qc }.
(** The loop of [_one_bar], 76-96 *)
Fixpoint stack_loop (pos_y neg_y left right : Qc) (data : list Qc) : list hbar * Qc * Qc :=
  match data with
  | [] => ([], left, right)
  | d :: r => if Qcltb 0 d then
                let '(bs, l, t) := stack_loop pos_y neg_y left (right + d) r in (HBar pos_y right d :: bs, l, t)
              else if Qcltb d 0 then
                let '(bs, l, t) := stack_loop pos_y neg_y (left + d) right r in (HBar neg_y (left + d) (Qcabs d) :: bs, l, t)
              else stack_loop pos_y neg_y left right r
  end.
(** Sums of the positive and of the negative values, 31-32 and 149-150 *)
Definition poss (data : list Qc) : Qc := Qcsum (filter (fun k => Qcltb 0 k) data).
Definition negs (data : list Qc) : Qc := Qcsum (filter (fun k => Qcltb k 0) data).
(** [_one_bar], 16-115: the bars, the net marker (value, y), and the lower edge.  Colours and labels left out. *)
Definition half : Qc := Q2Qc (1 # 2).
Definition one_bar (pos_y neg_y : Qc) (data : list Qc) : list hbar * option (Qc * Qc) * Qc :=
  let p := poss data in let n := negs data in let t := p + n in
  if eqb p 0 && eqb n 0 then ([], None, pos_y)
  else
    let both := negb (eqb p 0) && negb (eqb n 0) in
    let ny := if both then neg_y else pos_y in
    let '(bs, _, _) := stack_loop pos_y ny 0 0 data in
    (bs, if both then Some (t, if Qcltb 0 t then neg_y else pos_y) else None, ny - Q2Qc (55 # 100)).
(** [stack_bars], 159-172: from the top down *)
Definition bar_skip : Qc := Q2Qc (16 # 10).
Fixpoint stack_from (pos_y : Qc) (series : list (list Qc)) : list (list hbar * option (Qc * Qc)) :=
  match series with
  | [] => []
  | d :: r => let '(bs, m, btm) := one_bar pos_y (pos_y - 1) d in (bs, m) :: stack_from (btm - bar_skip) r
  end.
Definition stack_bars (series : list (list Qc)) := stack_from (Q2Qc (55 # 100)) series.
(** The horizontal extent, 146-157, before the margins of 0.02 and 0.08 of its width (194) *)
Definition extent_step (b : Qc * Qc) (d : list Qc) : Qc * Qc :=
  (if Qcltb (negs d) (fst b) then negs d else fst b, if Qcltb (snd b) (poss d) then poss d else snd b).
Definition extent (series : list (list Qc)) : Qc * Qc := fold_left extent_step series (0, 0).

(** Model of /repo/antelope_catalog/providers/traci/traci_2_1_spreadsheet.py (Traci21Factors), traci/quantity.py
    (Traci21QuantityImplementation), traci/q_info.py and xl_dict.py: the TRACI 2.1 spreadsheet, loaded or queried.

    Simplifications: the sheet is already read and has all the columns, in the order of q_info; texts in factor cells are not
    numerals; numbers in CAS cells are whole and not negative; strings have no newline, and a CAS text is a numeral only if it is all
    digits; generators are run to their end, an error drops what they yielded; strings contain no uuid, and two names never have the same uuid3; the archive has its own
    mass quantity and no upstream; factors are rationals. *)
From Coq Require Import String Ascii NArith.
From Verif Require Import Num Base PyStr.
Open Scope nat_scope.
Open Scope string_scope.
Open Scope list_scope.

(** ** CAS numbers *)
Fixpoint dec_fuel (fuel : nat) (n : N) (acc : list ascii) : list ascii :=
  let acc := ascii_of_N (48 + n mod 10) :: acc in
  match fuel with O => acc | S fuel => if (n <? 10)%N then acc else dec_fuel fuel (n / 10)%N acc end.
(** [str(n)] *)
Definition dec (n : N) : list ascii := dec_fuel (N.size_nat n) n [].
Definition is_digit (c : ascii) : bool := ((48 <=? N_of_ascii c) && (N_of_ascii c <=? 57))%N.
(** [int(s)] of a text of digits *)
Definition num (s : list ascii) : N := fold_left (fun a c => 10 * a + (N_of_ascii c - 48))%N s 0%N.
Definition dash : ascii := "-"%char.
(** [CAS_regexp], quantity.py:7 *)
Definition cas_match (s : list ascii) : bool :=
  match rev s with
  | c :: h1 :: d1 :: d2 :: h2 :: l => is_digit c && Ascii.eqb h1 dash && is_digit d1 && is_digit d2 && Ascii.eqb h2 dash && forallb is_digit l && (List.length l <=? 6)%nat
  | _ => false
  end.
(** quantity.py:18-19 *)
Definition hyphens (ss : list ascii) : list ascii :=
  let n := List.length ss in
  firstn (n - 3) ss ++ dash :: firstn ((n - 1) - (n - 3)) (skipn (n - 3) ss) ++ dash :: skipn (n - 1) ss.
(** A cell of the sheet: a number or a text (empty cells are empty texts) *)
Inductive cell := CNum (n : N) | CText (s : string).
(** [transform_numeric_cas], quantity.py:10-19: [None] is a ValueError *)
Definition numeric_cas (c : cell) : option (option (list ascii)) :=
  match c with
  | CNum n => Some (Some (hyphens (dec n)))
  | CText s =>
      let l := list_ascii_of_string s in
      if String.eqb s "x" then Some None
      else if cas_match l then Some (Some l)
      else match l with
           | [] => None
           | _ => if forallb is_digit l then Some (Some (hyphens (dec (num l)))) else None
           end
  end.
(** [transform_string_cas], traci_2_1_spreadsheet.py:25-26 *)
Definition string_cas (s : list ascii) : N := num (filter (fun c => negb (Ascii.eqb c dash)) s).

(** ** The sheet *)
(** [q_info_21], q_info.py:9-44: the category and the compartment of each factor column *)
Definition columns : list (string * string) :=
  let can := "Human health toxicity, cancer" in let non := "Human health toxicity, non-cancer" in let eco := "Ecotoxicity, freshwater" in
  [("Global Warming Air", "air"); ("Acidification Air", "air"); ("Human Health Particulates Air", "air"); ("Eutrophication Air", "air");
   ("Eutrophication Water", "water"); ("Ozone Depletion Air", "air"); ("Smog Air", "air");
   (eco, "urban air"); (eco, "rural air"); (eco, "fresh water"); (eco, "sea water"); (eco, "soil"); (eco, "agricultural");
   (can, "urban air"); (non, "urban air"); (can, "rural air"); (non, "rural air"); (can, "fresh water"); (non, "fresh water");
   (can, "sea water"); (non, "sea water"); (can, "soil"); (non, "soil"); (can, "agricultural"); (non, "agricultural")].
(** 'Substance Name', 'Formatted CAS #', 'CAS #', factor cells (a text is [None]) *)
Record trow := Row { r_name : string; r_fmt : cell; r_cas : cell; r_cf : list (option Qc) }.
Definition cells (r : trow) : list ((string * string) * option Qc) := combine columns (r_cf r).

(** ** The archive *)
Record tflow := TF { tf_name : string; tf_comp : string; tf_cas : option (list ascii); tf_ch : dict string Qc }.
(** Flows by external reference; whether load_all has finished *)
Record tarch := TA { ta_fl : dict string tflow; ta_loaded : bool }.
Definition tnew : tarch := TA [] false.
(** [_flow_key], traci_2_1_spreadsheet.py:69-71 *)
Definition flow_key (n c : string) : string := (n ++ ", " ++ c)%string.
(** [_create_flow], 95-105: [None] is a ValueError *)
Definition create_flow (r : trow) (c : string) (a : tarch) : option tarch :=
  match numeric_cas (r_fmt r) with
  | None => None
  | Some cas =>
      let n := lower (r_name r) in
      match dget (flow_key n c) (ta_fl a) with
      | Some _ => Some a
      | None => Some (TA (dset (flow_key n c) (TF n c cas []) (ta_fl a)) (ta_loaded a))
      end
  end.
(** A factor is set once; the error for a second one is caught, 117-120. *)
Definition add_ch (key k : string) (v : Qc) (a : tarch) : tarch :=
  match dget key (ta_fl a) with
  | None => a
  | Some f => match dget k (tf_ch f) with
              | Some _ => a
              | None => TA (dset key (TF (tf_name f) (tf_comp f) (tf_cas f) (dset k v (tf_ch f))) (ta_fl a)) (ta_loaded a)
              end
  end.
(** [_add_flowable], 107-120 *)
Fixpoint add_cells (r : trow) (l : list ((string * string) * option Qc)) (a : tarch) : tarch * bool :=
  match l with
  | [] => (a, true)
  | (_, None) :: l => add_cells r l a
  | ((k, c), Some v) :: l =>
      if eqb v 0%Qc then add_cells r l a
      else match create_flow r c a with
           | None => (a, false)
           | Some a1 => add_cells r l (add_ch (flow_key (lower (r_name r)) c) k v a1)
           end
  end.
(** [_load_all], 125-127 *)
Fixpoint load_rows (s : list trow) (a : tarch) : tarch * bool :=
  match s with
  | [] => (a, true)
  | r :: s => match add_cells r (cells r) a with (a1, true) => load_rows s a1 | (a1, false) => (a1, false) end
  end.

(** ** The quantity interface *)
Inductive terr := EValue | ERuntime | EKey | EAttr.
(** What a quantity argument stands for: a method, another entity, nothing *)
Inductive canon := IsMethod (k : string) | IsOther | IsNothing.
Definition categories : list string := map fst columns.
(** [get_canonical], quantity.py:24-31 *)
Definition canonical (q : string) (a : tarch) : canon :=
  if mem q categories then IsMethod q
  else if eqb q "Mass" || din q (ta_fl a) then IsOther else IsNothing.
(** A quantity argument: none, a string, a quantity entity (whose lookup by key raises AttributeError) *)
Inductive qarg := QNone | QName (q : string) | QEntity.
(** Which columns a query looks at *)
Inductive sel := Any | Never | Only (k : string).
Definition selects (s : sel) (k : string) : bool := match s with Any => true | Never => false | Only k' => eqb k k' end.
Definition comp_ok (o : option string) (c : string) : bool := match o with None => true | Some c' => eqb c c' end.
(** Flow, category, value *)
Definition factor := (string * string * Qc)%type.
(** [cf_for_method_and_compartment], 144-157 *)
Fixpoint cf_cells (r : trow) (m : sel) (o : option string) (l : list ((string * string) * option Qc)) (a : tarch) : tarch * list factor * bool :=
  match l with
  | [] => (a, [], true)
  | (_, None) :: l => cf_cells r m o l a
  | ((k, c), Some v) :: l =>
      if selects m k && comp_ok o c && negb (eqb v 0%Qc) then
        match create_flow r c a with
        | None => (a, [], false)
        | Some a1 => let '(a2, x, ok) := cf_cells r m o l a1 in (a2, (flow_key (lower (r_name r)) c, k, v) :: x, ok)
        end
      else cf_cells r m o l a
  end.
Fixpoint cf_rows (m : sel) (o : option string) (s : list trow) (a : tarch) : tarch * list factor * bool :=
  match s with
  | [] => (a, [], true)
  | r :: s => match cf_cells r m o (cells r) a with
              | (a1, x, false) => (a1, x, false)
              | (a1, x, true) => let '(a2, y, ok) := cf_rows m o s a1 in (a2, x ++ y, ok)
              end
  end.
(** [row_for_key], 159-169 *)
Definition cas_is (n : N) (c : cell) : bool := match c with CNum m => N.eqb n m | CText _ => false end.
Definition keyed (key : string) (r : trow) : bool :=
  let l := list_ascii_of_string key in
  if cas_match l then cas_is (string_cas l) (r_cas r) else String.eqb (lower (r_name r)) (lower key).
Inductive tres := TFactors (x : list factor) | TFlowables (x : list (option (list ascii) * string)) | TComps (x : list string) | TDone | TErr (e : terr).
(** [factors], quantity.py:65-75 *)
Definition factors (s : list trow) (q : qarg) (f o : option string) (a : tarch) : tarch * tres :=
  match q with
  | QEntity => (a, TErr EAttr)
  | QNone => (a, TFactors [])
  | QName q =>
      match canonical q a with
      | IsNothing => (a, TFactors [])
      | k => let m := match k with IsMethod k => Only k | _ => Never end in
             let rows := match f with None => s | Some f => filter (keyed f) s end in
             match cf_rows m o rows a with (a1, x, true) => (a1, TFactors x) | (a1, _, false) => (a1, TErr EValue) end
      end
  end.
(** The selection of [flowables] and [compartments]: an unknown quantity is the same as none *)
Definition select (q : qarg) (a : tarch) : sel :=
  match q with
  | QName q => match canonical q a with IsMethod k => Only k | IsOther => Never | IsNothing => Any end
  | _ => Any
  end.
(** [next] of [cf_for_method_and_compartment]: up to the first factor; the result tells whether there is one *)
Fixpoint cf_first (r : trow) (m : sel) (o : option string) (l : list ((string * string) * option Qc)) (a : tarch) : tarch * option bool :=
  match l with
  | [] => (a, Some false)
  | (_, None) :: l => cf_first r m o l a
  | ((k, c), Some v) :: l =>
      if selects m k && comp_ok o c && negb (eqb v 0%Qc) then
        match create_flow r c a with None => (a, None) | Some a1 => (a1, Some true) end
      else cf_first r m o l a
  end.
(** [flowables], quantity.py:33-41 *)
Fixpoint flow_rows (m : sel) (o : option string) (s : list trow) (a : tarch) : tarch * option (list (option (list ascii) * string)) :=
  match s with
  | [] => (a, Some [])
  | r :: s =>
      match cf_first r m o (cells r) a with
      | (a1, None) => (a1, None)
      | (a1, Some false) => flow_rows m o s a1
      | (a1, Some true) => match numeric_cas (r_cas r) with
                           | None => (a1, None)
                           | Some cas => match flow_rows m o s a1 with
                                         | (a2, None) => (a2, None)
                                         | (a2, Some x) => (a2, Some ((cas, lower (r_name r)) :: x))
                                         end
                           end
      end
  end.
Definition flowables (s : list trow) (q : qarg) (o : option string) (a : tarch) : tarch * tres :=
  match q with
  | QEntity => (a, TErr EAttr)
  | _ => match flow_rows (select q a) o s a with (a1, Some x) => (a1, TFlowables x) | (a1, None) => (a1, TErr EValue) end
  end.
(** [compartments], quantity.py:43-63; the 'Category' of another entity is a KeyError. *)
Definition comps_of (m : sel) (l : list ((string * string) * option Qc)) : list string :=
  set_of (flat_map (fun x => match x with ((k, c), Some v) => if selects m k && negb (eqb v 0%Qc) then [c] else [] | (_, None) => [] end) l).
Definition compartments (s : list trow) (q : qarg) (f : option string) (a : tarch) : tres :=
  match q with
  | QEntity => TErr EAttr
  | _ =>
      match f with
      | None => match select q a with Never => TErr EKey | m => TComps (set_of (map snd (filter (fun x => selects m (fst x)) columns))) end
      | Some f => match find (keyed f) s with
                  | None => TErr ERuntime
                  | Some r => match select q a with Never => TErr EKey | m => TComps (comps_of m (cells r)) end
                  end
      end
  end.

(** ** Histories *)
Inductive top := Load | Factors (q : qarg) (f o : option string) | Flowables (q : qarg) (o : option string) | Compartments (q : qarg) (f : option string).
Definition tstep (s : list trow) (o : top) (a : tarch) : tarch * tres :=
  match o with
  | Load => if ta_loaded a then (a, TDone)
            else match load_rows s a with (a1, true) => (TA (ta_fl a1) true, TDone) | (a1, false) => (a1, TErr EValue) end
  | Factors q f o => factors s q f o a
  | Flowables q o => flowables s q o a
  | Compartments q f => (a, compartments s q f a)
  end.
Definition thist (s : list trow) (l : list top) : tarch := fold_left (fun a o => fst (tstep s o a)) l tnew.

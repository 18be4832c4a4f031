(** Model of the rendering of EcoSpold2 text blocks: /repo/antelope_catalog/providers/xml_widgets.py:42-71.  A block is its
    variable elements (name, text: None if empty) and its text elements (index attribute, text).  Simplifications: variables
    have a name and texts an index; no text looks like a number, so that [str] gives it back; ASCII. *)
From Coq Require Import String Ascii.
From Verif Require Import Base TableModel.
Open Scope string_scope.
Open Scope nat_scope.
Open Scope list_scope.

(** [re.sub('%', '%%', s)], line 43 *)
Fixpoint esc (s : string) : string :=
  match s with EmptyString => EmptyString | String c r => if Ascii.eqb c "%" then String "%" (String "%" (esc r)) else String c (esc r) end.
(** [[A-Za-z0-9_]] *)
Definition word_char (c : ascii) : bool :=
  let n := nat_of_ascii c in
  ((65 <=? n) && (n <=? 90)) || ((97 <=? n) && (n <=? 122)) || ((48 <=? n) && (n <=? 57)) || (n =? 95).
Fixpoint word (s : string) : string * string :=
  match s with
  | String c r => if word_char c then (String c (fst (word r)), snd (word r)) else ("", s)
  | EmptyString => ("", "")
  end.
(** A match of ['{{([A-Za-z0-9_]+)}}'] at the beginning of [s]: the name. *)
Definition match_ref (s : string) : option string :=
  match s with
  | String a (String b r) =>
    if Ascii.eqb a "{" && Ascii.eqb b "{" then
      match word r with
      | (String c n, String x (String y _)) => if Ascii.eqb x "}" && Ascii.eqb y "}" then Some (String c n) else None
      | _ => None
      end
    else None
  | _ => None
  end.
(** [re.sub('{{([A-Za-z0-9_]+)}}', '%(\\1)s', s)], line 44; [k]: characters of a match still to be dropped *)
Fixpoint sub_refs (k : nat) (s : string) : string :=
  match s with
  | EmptyString => ""
  | String c r => match k with
                  | S k' => sub_refs k' r
                  | O => match match_ref s with
                         | Some n => ("%(" ++ n ++ ")s" ++ sub_refs (String.length n + 3) r)%string
                         | None => String c (sub_refs 0 r)
                         end
                  end
  end.
Definition convert_variable_ref (s : string) : string := sub_refs 0 (esc s).

(** [s % variables] for what stands in [s]: '%%' and '%(name)s'; [None]: an exception *)
Inductive fstate := FNorm | FPct | FKey (acc : string) | FConv (n : string).
Section Format.
Variable value : string -> string.
Fixpoint fmt (st : fstate) (s : string) : option string :=
  match s with
  | EmptyString => match st with FNorm => Some "" | _ => None end
  | String c r =>
    match st with
    | FNorm => if Ascii.eqb c "%" then fmt FPct r else option_map (String c) (fmt FNorm r)
    | FPct => if Ascii.eqb c "%" then option_map (String "%") (fmt FNorm r) else if Ascii.eqb c "(" then fmt (FKey "") r else None
    | FKey acc => if Ascii.eqb c ")" then fmt (FConv acc) r else if Ascii.eqb c "(" then None else fmt (FKey (acc ++ String c "")) r
    | FConv n => if Ascii.eqb c "s" then option_map (fun t => (value n ++ t)%string) (fmt FNorm r) else None
    end
  end.
End Format.

(** lines 55-65: a [defaultdict(str)]; a single variable element without text is equal to '' ([vs != ['']] is false); a text
    None is put in as 'None'. *)
Definition variables (vs : list (string * option string)) : dict string string :=
  match vs with
  | [(_, None)] | [(_, Some "")] => []
  | _ => fold_left (fun d v => dset (fst v) (match snd v with Some t => t | None => "None" end) d) vs []
  end.
Definition value_of (vs : list (string * option string)) (n : string) : string :=
  match dget n (variables vs) with Some t => t | None => "" end.
Definition newline : string := String (ascii_of_nat 10) "".
Definition join_lines (l : list string) : string := String.concat newline l.
Inductive bres := BOk (s : string) | BAttribute | BFormat.
Fixpoint all_some (l : list (option string)) : option (list string) :=
  match l with [] => Some [] | Some a :: r => option_map (cons a) (all_some r) | None :: _ => None end.
(** [render_text_block], lines 47-71; without text elements [find_tags] gives [['']], and '' has no [attrib]. *)
Definition render_text_block (vs : list (string * option string)) (ts : list (string * string)) : bres :=
  match ts with
  | [] => BAttribute
  | _ => match all_some (map (fun t => fmt (value_of vs) FNorm (convert_variable_ref (snd t)))
                             (tsort (fun a b => String.leb (fst a) (fst b)) ts)) with
         | Some l => BOk (join_lines l)
         | None => BFormat
         end
  end.

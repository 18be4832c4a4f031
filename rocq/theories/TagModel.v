(** Model of the tag counts over archives: /repo/lcatools/tools.py:64-91 (and [count_exchanges], 47-52). *)
From Coq Require Import String Ascii.
From Verif Require Import Base PyStr.
Open Scope string_scope.
Open Scope nat_scope.
Open Scope list_scope.

(** [re.split(';\s*|,\s*|\s*\(|\)\s*|/', s)] without its empty parts (tools.py:64, 71), read from left to right: [Skip] after a
    delimiter that takes the white space behind it, [Paren] in white space before a parenthesis that takes it. *)
Inductive mode := Norm | Skip | Paren.
Definition opens (s : string) : bool := match lstrip s with String "(" _ => true | _ => false end.
Definition emit (cur : string) (r : list string) : list string := if String.eqb cur "" then r else cur :: r.
Definition snoc (s : string) (c : ascii) : string := (s ++ String c "")%string.
Definition takes_space (c : ascii) : bool := Ascii.eqb c ";" || Ascii.eqb c "," || Ascii.eqb c ")".
Fixpoint scan (m : mode) (cur s : string) : list string :=
  match s with
  | EmptyString => emit cur []
  | String c r =>
    match m with
    | Paren => if is_space c then scan Paren "" r else scan Norm "" r
    | _ =>
      if (match m with Skip => is_space c | _ => false end) then scan Skip cur r
      else if takes_space c then emit cur (scan Skip "" r)
      else if Ascii.eqb c "/" then emit cur (scan Norm "" r)
      else if opens s then emit cur (if is_space c then scan Paren "" r else scan Norm "" r)
      else scan Norm (snoc cur c) r
    end
  end.
Definition pieces (s : string) : list string := scan Norm "" s.

(** The values of an entity's properties: None, a text, a list of texts, or anything else. *)
Inductive value := VNone | VText (s : string) | VList (l : list string) | VOther.
Record tent := Tent { t_id : string; t_props : list (string * value) }.
(** [', '.join(l)] *)
Fixpoint join (l : list string) : string :=
  match l with [] => "" | [a] => a | a :: r => (a ++ ", " ++ join r)%string end.
Definition excluded : list string := ["TemporalScope"; "IsicNumber"].
Definition value_pieces (v : value) : option (list string) :=
  match v with VNone => Some [] | VText s => Some (pieces s) | VList l => Some (pieces (join l)) | VOther => None end.
(** [t.union(..)] *)
Definition add1 (t : list string) (x : string) : list string := if existsb (String.eqb x) t then t else t ++ [x].
(** [tags], tools.py:64-74; [None]: [TypeError] *)
Fixpoint tags_from (t : list string) (ps : list (string * value)) : option (list string) :=
  match ps with
  | [] => Some t
  | (k, v) :: r =>
    match v with
    | VNone => tags_from t r
    | _ => if existsb (String.eqb k) excluded then tags_from t r
           else match value_pieces v with
                | None => None
                | Some fs => tags_from (fold_left add1 (map (fun f => (k ++ "=" ++ f)%string) fs) t) r
                end
    end
  end.
Definition tags (e : tent) : option (list string) := tags_from [] (t_props e).

(** [Counter] and [defaultdict(list)] *)
Section Count.
Context {K : Type} `{EqB K}.
Definition bump (d : dict K nat) (x : K) : dict K nat := dset x (S (match dget x d with Some n => n | None => 0 end)) d.
Definition put (m : dict K (list string)) (i : string) (x : K) : dict K (list string) :=
  dset x ((match dget x m with Some l => l | None => [] end) ++ [i]) m.
Definition counted (d : dict K nat) (x : K) : nat := match dget x d with Some n => n | None => 0 end.
Definition listed (m : dict K (list string)) (x : K) : list string := match dget x m with Some l => l | None => [] end.
(** [count_exchanges], tools.py:47-52: [key] is the flow's text and the direction *)
Definition count_exchanges {X} (key : X -> K) (l : list X) : dict K nat := fold_left (fun d x => bump d (key x)) l [].
End Count.

(** [count_tags], tools.py:77-88 *)
Fixpoint count_from (search : option (string -> bool)) (dm : dict string nat * dict string (list string)) (l : list tent)
  : option (dict string nat * dict string (list string)) :=
  match l with
  | [] => Some dm
  | e :: r =>
    match tags e with
    | None => None
    | Some t =>
      if (match search with Some p => negb (existsb p t) | None => false end) then count_from search dm r
      else count_from search (fold_left bump t (fst dm), fold_left (fun m x => put m (t_id e) x) t (snd dm)) r
    end
  end.
Definition count_tags (l : list tent) (search : option (string -> bool)) := count_from search ([], []) l.

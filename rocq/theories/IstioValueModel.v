(** * Model of value matching in nca/Parsers/IstioPolicyYamlParser.py: exact, prefix, suffix and presence values.

    Simplification: Python's [\w] also holds non-ASCII letters; here it holds the ASCII letters, digits and the underscore. *)
From Coq Require Import List Bool Arith String Ascii.
From Verif Require Import TextModel PortProtoModel YamlModel ClusterModel CalicoSelectorModel.
Import ListNotations.
Local Open Scope string_scope.
Local Open Scope list_scope.
Local Open Scope nat_scope.

(** ** Python's string operations *)
(** str.count of a character. *)
Fixpoint count_char (c : ascii) (l : list ascii) : nat :=
  match l with [] => 0 | d :: t => (if Ascii.eqb c d then 1 else 0) + count_char c t end.
(** startswith('*') and endswith('*'). *)
Definition starts_star (l : list ascii) : bool := match l with c :: _ => Ascii.eqb c "*" | [] => false end.
Definition ends_star (l : list ascii) : bool := starts_star (rev l).
Definition has_star (l : list ascii) : bool := existsb (Ascii.eqb "*") l.
(** str.replace of a character by a text. *)
Definition replace_char (c : ascii) (r : list ascii) (l : list ascii) : list ascii :=
  flat_map (fun d => if Ascii.eqb c d then r else [d]) l.
(** startswith and endswith of a text. *)
Fixpoint starts_with (p l : list ascii) : bool :=
  match p, l with [] , _ => true | a :: p', b :: l' => Ascii.eqb a b && starts_with p' l' | _ :: _, [] => false end.
Definition ends_with (p l : list ascii) : bool := starts_with (rev p) (rev l).

(** _validate_istio_regex_pattern, IstioPolicyYamlParser.py:25-33: whether there is no syntax error. *)
Definition pattern_ok (l : list ascii) : bool :=
  if has_star l then (count_char "*" l =? 1) && (starts_star l || ends_star l) else true.

(** _parse_istio_regex_from_enumerated_domain, IstioPolicyYamlParser.py:47-75, for a str; [values] is values_list. *)
Definition enumerated (v : string) (values : list string) : option (list string) :=
  let l := text v in
  if negb (pattern_ok l) then None
  else Some (
    if negb (has_star l) then (if smem v values then [v] else [])
    else if String.eqb v "*" then values
    else if starts_star l then filter (fun w => ends_with (tl l) (text w)) values
    else if ends_star l then filter (fun w => starts_with (removelast l) (text w)) values
    else []).
(** ... for any element of the list: ['*' in value] needs a str, a list or a dict; a list or dict without '*' is not in
    values_list (and with it, .count or .startswith raises an exception or the pattern is illegal). *)
Definition enumerated_yaml (y : yaml) (values : list string) : option (list string) :=
  match y with
  | YStr s => enumerated s values
  | YList l => if existsb (among ["*"]) l then None else Some []
  | YMap m => match assoc_s "*" m with Some _ => None | None => Some [] end
  | _ => None
  end.

(** ** Hosts and paths *)
(** The characters of MinDFA.default_dfa_alphabet_chars, MinDFA.py:44: a dot, \w, a slash, a minus. *)
Definition word_char (c : ascii) : bool := alnum c || Ascii.eqb c "_".
Definition alphabet (c : ascii) : bool := Ascii.eqb c "." || word_char c || Ascii.eqb c "/" || Ascii.eqb c "-".
(** The text "[.\w/\-]", IstioPolicyYamlParser.py:273. *)
Definition allowed_chars : list ascii := text "[.\w/\-]".
(** _parse_str_value, IstioPolicyYamlParser.py:265-286. *)
Definition str_value (y : yaml) : option (list ascii) :=
  match y with
  | YStr s =>
    if negb (forallb (fun c => Ascii.eqb c "*" || alphabet c) (text s)) then None
    else let res := replace_char "." (text "[.]") (text s) in
      if has_star res then
        if negb (pattern_ok res) then None
        else if match res with [c] => Ascii.eqb c "*" | _ => false end then Some (allowed_chars ++ ["+"%char])
        else if starts_star res || ends_star res then Some (replace_char "*" (allowed_chars ++ ["*"%char]) res)
        else Some res
      else Some res
  | _ => None
  end.
Fixpoint join_texts (sep : ascii) (l : list (list ascii)) : list ascii :=
  match l with [] => [] | [x] => x | x :: t => x ++ sep :: join_texts sep t end.
(** get_values_list_regex, IstioPolicyYamlParser.py:288-298; an empty list is an AssertionError. *)
Definition values_regex (l : list yaml) : option (list ascii) :=
  match l with [] => None | _ => bind (mapM str_value l) (fun ts => Some (join_texts "|" ts)) end.

(** ** Regular expressions, in the fragment these texts are in.
    Alternatives separated by '|'; an alternative is a sequence of pieces; a piece is a character or a class "[...]"
    of characters, \w and escaped minus signs, possibly repeated by '*' or '+'.  This is how both Python's re and greenery
    read such texts. *)
Inductive item := IChar (c : ascii) | IWord.
Inductive rep := Once | Star | Plus.
Record piece := Piece { p_class : list item; p_rep : rep }.
Definition regex := list (list piece).
Definition special (c : ascii) : bool := existsb (Ascii.eqb c) (text "|*+?.()[]{}^$\").
(** The items of a class after its opening bracket, and the rest of the text. *)
Fixpoint class_items (l : list ascii) : option (list item * list ascii) :=
  match l with
  | [] => None
  | c :: t =>
    if Ascii.eqb c "]" then Some ([], t)
    else if Ascii.eqb c "\" then
      match t with
      | d :: t' => if Ascii.eqb d "w" then option_map (fun q => (IWord :: fst q, snd q)) (class_items t')
                   else if Ascii.eqb d "-" then option_map (fun q => (IChar "-" :: fst q, snd q)) (class_items t')
                   else None
      | [] => None
      end
    else if existsb (Ascii.eqb c) (text "[^-") then None
    else option_map (fun q => (IChar c :: fst q, snd q)) (class_items t)
  end.
Definition read_atom (l : list ascii) : option (list item * list ascii) :=
  match l with
  | [] => None
  | c :: t => if Ascii.eqb c "[" then class_items t
              else if special c then None else Some ([IChar c], t)
  end.
Definition read_rep (l : list ascii) : rep * list ascii :=
  match l with
  | c :: t => if Ascii.eqb c "*" then (Star, t) else if Ascii.eqb c "+" then (Plus, t) else (Once, l)
  | [] => (Once, [])
  end.
Fixpoint read_alts (fuel : nat) (l : list ascii) : option regex :=
  match fuel with
  | 0 => None
  | S f =>
    match l with
    | [] => Some [[]]
    | c :: t =>
      if Ascii.eqb c "|" then option_map (cons []) (read_alts f t)
      else bind (read_atom l) (fun q =>
           let (r, rest) := read_rep (snd q) in
           bind (read_alts f rest) (fun alts =>
           match alts with a :: more => Some ((Piece (fst q) r :: a) :: more) | [] => None end))
    end
  end.
Definition read_regex (l : list ascii) : option regex := read_alts (S (List.length l)) l.
(** The words a regular expression matches. *)
Definition in_item (c : ascii) (i : item) : Prop := match i with IChar d => c = d | IWord => word_char c = true end.
Definition in_class (s : list item) (c : ascii) : Prop := exists i, In i s /\ in_item c i.
Definition piece_matches (p : piece) (w : list ascii) : Prop :=
  match p_rep p with
  | Once => exists c, w = [c] /\ in_class (p_class p) c
  | Star => Forall (in_class (p_class p)) w
  | Plus => w <> [] /\ Forall (in_class (p_class p)) w
  end.
Fixpoint seq_matches (s : list piece) (w : list ascii) : Prop :=
  match s with
  | [] => w = []
  | p :: t => exists a b, w = a ++ b /\ piece_matches p a /\ seq_matches t b
  end.
Definition re_matches (e : regex) (w : list ascii) : Prop := exists s, In s e /\ seq_matches s w.

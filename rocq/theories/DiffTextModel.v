(** * Model of the texts of differences of connections: ConnectivityProperties.print_diff, nca/CoreDS/ConnectivityProperties.py:188-227.

    [word_rep] gives the text of a representative of hosts or paths (MinDFA.rep). *)
From Coq Require Import ZArith List Bool Arith String Ascii.
From Verif Require Import IntervalModel HyperModel HyperInst TextModel PortProtoModel ConnTextModel.
Import ListNotations.
Local Open Scope string_scope.
Local Open Scope list_scope.
Local Open Scope nat_scope.

Section Diff.
Context (dom : dim -> val) (word_rep : dim -> Z -> string) (all : list dim).
(** The text of one value, lines 218-225 ([None]: exception of get_protocol_name, or IndexError). *)
Definition item_value (d : dim) (x : Z) : option string :=
  match d with
  | 2 => get_protocol_name x
  | 5 => py_nth all_methods x
  | 6 | 7 => Some (word_rep d x)
  | _ => Some (str_of_Z x)
  end.
(** get_first_item with the relevant dimensions, CanonicalHyperCubeSet.py:567-585 ([None]: NotImplemented). *)
Definition item_of (act : list dim) (h : hc val) : option (list Z) :=
  bind (first_item (val_ops dom) all h) (fun xs => Some (map snd (filter (fun dx => mem_dim (fst dx) act) (combine all xs)))).
(** _get_first_item_str, lines 212-227. *)
Definition first_item_str (h : hc val) : option string :=
  bind (item_of (act_of h) h) (fun item =>
  bind (mapM (fun dx : dim * Z => bind (item_value (fst dx) (snd dx)) (fun t => Some (dim_name (fst dx) ++ "=" ++ t)%string)) (combine (act_of h) item)) (fun l =>
    Some ("[" ++ join "," l ++ "]")%string)).
(** print_diff, lines 188-210. *)
Definition print_diff (x y : hc val) (n1 n2 : string) : option string :=
  if is_all x && negb (is_all y) then Some (n1 ++ " allows all connections while " ++ n2 ++ " does not.")%string
  else if negb (is_all x) && is_all y then Some (n2 ++ " allows all connections while " ++ n1 ++ " does not.")%string
  else
    let d1 := h_sub (val_ops dom) all x y in
    let d2 := h_sub (val_ops dom) all y x in
    if hbool d1 then bind (first_item_str d1) (fun t => Some (n1 ++ " allows communication on " ++ t ++ " while " ++ n2 ++ " does not")%string)
    else if hbool d2 then bind (first_item_str d2) (fun t => Some (n2 ++ " allows communication on " ++ t ++ " while " ++ n1 ++ " does not")%string)
    else Some "No diff.".
End Diff.

(** * Model of the texts of connections: ConnectivityProperties.get_simplified_connections_representation with is_str,
      nca/CoreDS/ConnectivityProperties.py:111-141, 491-527.

    [dom] gives the domains of the dimensions.  The texts of host and path automata (DimensionsManager.get_dim_values_str, MinDFA.__str__) and of peers
    are given by [word_text]. *)
From Coq Require Import ZArith List Bool Arith String Ascii.
From Verif Require Import IntervalModel HyperModel HyperInst TextModel PortProtoModel.
Import ListNotations.
Local Open Scope string_scope.
Local Open Scope list_scope.
Local Open Scope nat_scope.

(** The names of the dimensions, ConnectivityCube.py:20-21 (numbered as in StdDims). *)
Definition dim_names : list string := ["src_peers"; "dst_peers"; "protocols"; "src_ports"; "dst_ports"; "methods"; "hosts"; "paths"; "icmp_type"; "icmp_code"].
Definition dim_name (d : dim) : string := nth d dim_names "".
(** "\n". *)
Definition newline : ascii := "010".
Definition ints_of (v : val) : iset := match v with VI l | VN _ l => l end.

Section Texts.
Context (dom : dim -> val) (word_text : dim -> val -> string).
(** The text of the values of a dimension, lines 121-140 ([None]: failed assertion in the texts of protocols or methods). *)
Definition dim_text (d : dim) (v : val) : option string :=
  match d with
  | 2 => pr_str (ints_of v)
  | 5 => m_str (ints_of v)
  | 0 | 1 | 6 | 7 => Some (word_text d v)
  | _ => Some (join "," (iset_items_text (ints_of v)))
  end.
(** get_cube_dict with is_txt, lines 111-141: dimensions with all values are skipped. *)
Definition cube_dict (ds : list dim) (k : list val) : option (list (string * string)) :=
  mapM (fun dv => match dim_text (fst dv) (snd dv) with Some t => Some (dim_name (fst dv), t) | None => None end)
       (filter (fun dv => negb (val_eqb (dom (fst dv)) (snd dv))) (combine ds k)).
(** _get_cube_str_representation, lines 525-527. *)
Definition cube_str (items : list (string * string)) : string := ("{" ++ join "," (map (fun kv => fst kv ++ ":" ++ snd kv)%string items) ++ "}")%string.
(** _get_connections_representation, lines 519-523. *)
Definition conns_repr (all : list dim) (h : hc val) : option string :=
  match mapM (cube_dict (act_of h)) (iter_cubes (val_ops dom) all h) with
  | Some l => Some (join "," (map cube_str l))
  | None => None
  end.
(** get_simplified_connections_representation, lines 491-517; [compl] is use_complement_simplification. *)
Definition conn_text (all : list dim) (compl : bool) (h : hc val) : option string :=
  if is_all h then Some "All connections"
  else if negb (hbool h) then Some "No connections"
  else match conns_repr all h with
       | None => None
       | Some rep =>
         if compl && mem_dim 2 (act_of h) then
           match conns_repr all (h_sub (val_ops dom) all (hall Conn) h) with
           | None => None
           | Some crep => Some (if Nat.ltb (String.length crep) (String.length rep) then ("All but " ++ crep)%string else rep)
           end
         else Some rep
       end.
End Texts.

(** * Model of the texts of label expressions in firewall rules: LabelExpr, nca/FWRules/FWRule.py:11-132.

    Python sets of strings are lists without order; len(s) is the length of a list without duplicates.  [None] is an IndexError. *)
From Coq Require Import ZArith List Bool Arith String Ascii.
From Verif Require Import TextModel PortProtoModel PeerModel QueryModel YamlModel ClusterModel FWModel.
Import ListNotations.
Local Open Scope string_scope.
Local Open Scope list_scope.
Local Open Scope nat_scope.

(** sorted(l) for strings. *)
Fixpoint insert_text (s : string) (l : list string) : list string :=
  match l with [] => [s] | x :: t => match String.compare x s with Lt => x :: insert_text s t | _ => s :: l end end.
Definition sort_texts (l : list string) : list string := fold_right insert_text [] l.
Definition text_set (l : list string) : list string := fold_left (fun r v => sadd v r) l [].
Definition sdiff (l m : list string) : list string := filter (fun v => negb (smem v m)) l.
Definition same_texts (l m : list string) : bool := forallb (fun v => smem v m) l && forallb (fun v => smem v l) m.
(** s.replace(c, ''). *)
Fixpoint remove_char (c : ascii) (s : string) : string :=
  match s with EmptyString => EmptyString | String a t => if Ascii.eqb a c then remove_char c t else String a (remove_char c t) end.

(** get_invalid_value_expr_str, lines 30-36. *)
Definition invalid_text (k : string) : string :=
  String.concat " and " (map (fun x => "!has(" ++ x ++ ")")%string (sort_texts (split ":" k))).
(** get_all_valid_values_expr_str, lines 38-44. *)
Definition all_valid_text (k : string) : string :=
  String.concat " and " (map (fun x => "has(" ++ x ++ ")")%string (sort_texts (split ":" k))).
(** get_valid_values_expr_str, lines 46-76. *)
Definition valid_text (k : string) (values complement : list string) (without : bool) : string :=
  match values with
  | [] => ""
  | _ =>
    let neg := negb (match complement with [] => true | _ => false end) && (List.length complement <? List.length values) in
    let shorter := if neg then complement else values in
    let vals := String.concat "," (sort_texts shorter) in
    let expr := match shorter with
                | [_] => (k ++ (if neg then "!=" else "=") ++ vals)%string
                | _ => (k ++ " " ++ (if neg then "not in" else "in") ++ " (" ++ vals ++ ")")%string
                end in
    if neg && without then ("(has(" ++ k ++ ") and " ++ expr ++ ")")%string else expr
  end.
(** get_values_expr_str_per_simple_key, lines 78-103; [all] is map_simple_keys_to_all_values[k]. *)
Definition simple_text (k : string) (all values : list string) : string :=
  let valid := sdiff values [invalid_val] in
  let all_valid := sdiff all [invalid_val] in
  let l := (if smem invalid_val values then [invalid_text k] else []) ++
           match valid with
           | [] => []
           | _ => if same_texts valid all_valid && (1 <? List.length all_valid) then [all_valid_text k]
                  else [valid_text k valid (sdiff all_valid valid) (smem invalid_val all)]
           end in
  let res := String.concat " or " (sort_texts l) in
  if 1 <? List.length l then ("{" ++ res ++ "}")%string else res.
(** values_set_per_key, line 120. *)
Definition values_at (vs : list string) (i : nat) : option (list string) :=
  match mapM (fun v => nth_error (split ":" v) i) vs with Some l => Some (text_set l) | None => None end.
(** __str__, lines 105-126; [all_of] is map_simple_keys_to_all_values, [all] is all_values. *)
Definition label_expr_text (k : string) (vs : list string) (all_of : string -> list string) (all : list string) : option string :=
  let all_valid := filter (fun v => negb (contains_str invalid_val v)) all in
  if same_texts vs all_valid && (1 <? List.length all_valid) then Some (all_valid_text k) else
  let keys := split ":" k in
  match mapM (fun ix => match values_at vs (fst ix) with Some l => Some (simple_text (snd ix) (all_of (snd ix)) l) | None => None end)
             (combine (seq 0 (List.length keys)) keys) with
  | None => None
  | Some [e] => Some (remove_char "}" (remove_char "{" e))
  | Some es => Some (String.concat " and " (sort_texts es))
  end.
(** The text of an element made from labels: _create_fw_elements_by_pods_grouping_by_labels, MinimizeCsFWRules.py:287-291, with
    get_map_of_simple_keys_to_all_values and get_all_values_set_for_key_per_namespace (ClusterInfo.py:127-135, 156-169) for one namespace. *)
Definition label_text (ci : cinfo) (k : string) (vs : list string) (n : ns) : option string :=
  label_expr_text k vs (fun x => values_in ci x n) (values_in ci k n).

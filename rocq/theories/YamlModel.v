(** * Decoded YAML documents and the generic services of the parsers
    (nca/Parsers/GenericYamlParser.py).

    A parser gets a decoded YAML object: None, bool, int, float, str, list or dict.  Simplifications: dictionary keys
    are strings; of a float only whether it is zero is kept; strings are sequences of 8-bit characters.  Every
    exception (SyntaxError raised by syntax_error, TypeError, AttributeError, ...) is the value [None]; the text of
    messages and warnings are not modelled. *)
From Coq Require Import ZArith List Bool String Ascii.
From Verif Require Import IntervalModel TextModel PortProtoModel.
Import ListNotations.
Local Open Scope string_scope.
Local Open Scope list_scope.

Inductive yaml :=
| YNull | YBool (b : bool) | YInt (n : Z) | YFloat (zero : bool) | YStr (s : string)
| YList (l : list yaml) | YMap (m : list (string * yaml)).

(** Python truth value. *)
Definition ytrue (y : yaml) : bool :=
  match y with
  | YNull => false
  | YBool b => b
  | YInt n => negb (n =? 0)%Z
  | YFloat z => negb z
  | YStr s => negb (String.eqb s "")
  | YList l => match l with [] => false | _ => true end
  | YMap m => match m with [] => false | _ => true end
  end.
(** dict.get(key): None when the key is missing. *)
Definition yget (m : list (string * yaml)) (k : string) : yaml :=
  match assoc_s k m with Some v => v | None => YNull end.
Definition is_null (y : yaml) : bool := match y with YNull => true | _ => false end.
(** The value of [dict.get(key)] where a list is used only if it is truthy; the type was checked before. *)
Definition ylist (y : yaml) : list yaml := match y with YList l => l | _ => [] end.
(** isinstance(value, int): a bool is an int in Python. *)
Definition yint (y : yaml) : option Z :=
  match y with YInt n => Some n | YBool b => Some (if b then 1%Z else 0%Z) | _ => None end.

(** The types that appear in [allowed_keys]. *)
Inductive ytype := TyStr | TyInt | TyList | TyDict.
Definition has_type (t : ytype) (y : yaml) : bool :=
  match t, y with
  | TyStr, YStr _ | TyInt, YInt _ | TyInt, YBool _ | TyList, YList _ | TyDict, YMap _ => true
  | _, _ => false
  end.
(** Usage codes of [allowed_keys]. *)
Inductive usage := Optional | Mandatory | Unsupported | Ignored.
(** One key of check_fields_validity, GenericYamlParser.py:100-124; [allowed] are the allowed values of the key
    (the membership test [value in allowed_values[key]]), if any. *)
Record field := Field { f_key : string; f_usage : usage; f_type : option ytype; f_values : option (yaml -> bool) }.
Definition field_ok (m : list (string * yaml)) (f : field) : bool :=
  match assoc_s (f_key f) m with
  | None => match f_usage f with Mandatory => false | _ => true end
  | Some v =>
    match f_usage f with Unsupported => false | Mandatory => negb (is_null v) | _ => true end
    && match f_type f with Some t => is_null v || has_type t v | None => true end
    && match f_values f with Some ok => negb (ytrue v) || ok v | None => true end
  end.
(** check_fields_validity, GenericYamlParser.py:82-131: the dictionary if it is valid.  An object that is not a
    dictionary always leads to an exception (a missing mandatory key, or AttributeError of .get / .keys). *)
Definition check_fields (y : yaml) (fs : list field) : option (list (string * yaml)) :=
  match y with
  | YMap m =>
    if forallb (field_ok m) fs && forallb (fun kv => existsb (fun f => String.eqb (f_key f) (fst kv)) fs) m
    then Some m else None
  | _ => None
  end.
(** [value in ['a', 'b', ...]] and [value in [['a'], ['a', 'b'], ...]]. *)
Definition among (l : list string) (y : yaml) : bool := match y with YStr s => smem s l | _ => false end.
Fixpoint strs (l : list yaml) : option (list string) :=
  match l with
  | [] => Some []
  | YStr s :: t => bind (strs t) (fun r => Some (s :: r))
  | _ => None
  end.
Fixpoint strs_eqb (a b : list string) : bool :=
  match a, b with
  | [], [] => true
  | x :: a', y :: b' => String.eqb x y && strs_eqb a' b'
  | _, _ => false
  end.
Definition among_lists (ls : list (list string)) (y : yaml) : bool :=
  match y with
  | YList l => match strs l with Some r => existsb (strs_eqb r) ls | None => false end
  | _ => false
  end.

(** ** The regular expressions of the name checks, as predicates on characters.
    Both patterns (K8sPolicyYamlParser.py:62 and 90) match a text that is not empty, whose first and last characters
    are in an outer class and all of whose characters are in an inner class. *)
Definition in_range (a b c : ascii) : bool := Nat.leb (nat_of_ascii a) (nat_of_ascii c) && Nat.leb (nat_of_ascii c) (nat_of_ascii b).
Definition lower_or_digit (c : ascii) : bool := in_range "a" "z" c || in_range "0" "9" c.
Definition alnum (c : ascii) : bool := in_range "A" "Z" c || lower_or_digit c.
Definition name_char (c : ascii) : bool :=
  alnum c || Ascii.eqb c "-" || Ascii.eqb c "_" || Ascii.eqb c ".".
Definition dash_char (c : ascii) : bool := lower_or_digit c || Ascii.eqb c "-".
Fixpoint chars (s : string) : list ascii := match s with EmptyString => [] | String c t => c :: chars t end.
Definition bracketed (outer inner : ascii -> bool) (s : string) : bool :=
  match chars s with
  | [] => false
  | c :: _ => outer c && outer (last (chars s) c) && forallb inner (chars s)
  end.
(** check_dns_subdomain_name, K8sPolicyYamlParser.py:36-50: labels separated by dots. *)
Definition dns_subdomain_ok (s : string) : bool :=
  Nat.leb (String.length s) 253 && forallb (bracketed lower_or_digit dash_char) (split "." s).
(** check_dns_label_name, K8sPolicyYamlParser.py:52-65. *)
Definition dns_label_ok (s : string) : bool :=
  Nat.leb (String.length s) 63 && bracketed lower_or_digit dash_char s.
(** check_label_key_syntax, K8sPolicyYamlParser.py:67-94. *)
Definition label_name_ok (s : string) : bool := Nat.leb (String.length s) 63 && bracketed alnum name_char s.
Definition label_key_ok (s : string) : bool :=
  match split "/" s with
  | [name] => label_name_ok name
  | [prefix; name] => negb (String.eqb prefix "") && dns_subdomain_ok prefix && label_name_ok name
  | _ => false
  end.
(** check_label_value_syntax, K8sPolicyYamlParser.py:96-116. *)
Definition label_value_ok (y : yaml) : option string :=
  match y with
  | YStr s => if String.eqb s "" || (Nat.leb (String.length s) 63 && bracketed alnum name_char s) then Some s else None
  | _ => None
  end.
(** The port-name check, K8sPolicyYamlParser.py:293-297. *)
Definition port_name_ok (s : string) : bool :=
  Nat.leb (String.length s) 15 && bracketed lower_or_digit dash_char s.

(** ** parse_generic_yaml_objects_fields, GenericYamlParser.py:133-163 *)
(** Python [keyword in text]. *)
Fixpoint contains_str (w s : string) : bool :=
  prefix w s || match s with EmptyString => false | String _ t => contains_str w t end.
(** check_metadata_validity, GenericYamlParser.py:69-80. *)
Definition metadata_fields : list field :=
  Field "name" Mandatory (Some TyStr) None :: Field "namespace" Optional (Some TyStr) None ::
  map (fun k => Field k Optional None None)
    ["annotations"; "clusterName"; "creationTimestamp"; "deletionGracePeriodSeconds"; "deletionTimestamp"; "finalizers";
     "generateName"; "generation"; "labels"; "managedFields"; "ownerReferences"; "resourceVersion"; "selfLink"; "uid"].
(** Result: [Some None] for (None, None); else the dictionary, the name and the namespace (which can be null).
    [k8s]: whether 'k8s' is in it (line 156: for a plain string this is a
    substring test); [calico]: layer_keywords = 'calico' (line 162). *)
Definition parse_generic (y : yaml) (kinds versions keywords : list string) (k8s calico spec_required : bool) :
    option (option (list (string * yaml) * string * yaml)) :=
  match y with
  | YMap m =>
    if negb (among kinds (yget m "kind")) then Some None
    else match yget m "apiVersion" with
    | YStr v =>
      if negb (existsb (fun w => contains_str w v) keywords) then Some None
      else bind (check_fields y ([Field "kind" Mandatory (Some TyStr) None;
                                  Field "apiVersion" Mandatory (Some TyStr) (Some (among versions));
                                  Field "metadata" Mandatory (Some TyDict) None;
                                  Field "spec" (if spec_required then Mandatory else Optional) (Some TyDict) None] ++
                                 (if k8s then [Field "status" Optional (Some TyDict) None] else []))) (fun _ =>
           bind (check_fields (yget m "metadata") metadata_fields) (fun md =>
           match yget md "name" with
           | YStr name =>
             let ns := match assoc_s "namespace" md with Some v => v | None => if calico then YNull else YStr "default" end in
             Some (Some (m, name, ns))
           | _ => None
           end))
    (* [keyword in api_version] for a list or a dict; the type check then fails *)
    | YList l => if existsb (fun w => existsb (among [w]) l) keywords then None else Some None
    | YMap d => if existsb (fun w => match assoc_s w d with Some _ => true | None => false end) keywords then None else Some None
    | _ => None
    end
  | _ => None
  end.

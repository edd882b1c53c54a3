(** * The peers of a cluster with their labels, and the selectors of nca/NetworkConfig/PeerContainer.py. *)
From Coq Require Import ZArith List Bool Arith String.
From Verif Require Import IntervalModel TextModel PortProtoModel PeerModel PolicyModel YamlModel.
Import ListNotations.
Local Open Scope string_scope.
Local Open Scope list_scope.
Local Open Scope nat_scope.

(** peer_set of a PeerContainer, and the attributes of its peers: labels and extra_labels (Peer.py:18-22), namespace
    (its name; K8sNamespace objects are compared by name, K8sNamespace.py:17-20), the labels of a namespace
    (K8sNamespace.py:12-15) and named_ports (Peer.py:66; name -> (number, protocol number)).  Label values are
    strings. *)
Record cluster := Cluster {
  cl_peers : peerset;
  cl_labels : peer -> list (string * string);
  cl_extra : peer -> list (string * string);
  cl_ns : peer -> option string;
  cl_nslabels : string -> list (string * string);
  cl_ports : peer -> list (string * (Z * Z))
}.

(** FilterActionType, GenericYamlParser.py:19-27. *)
Inductive faction := FIn | FNotIn | FContain | FStartWith | FEndWith.
(** [labels.get(key) in values]; None is in no list of strings. *)
Definition get_in (l : list (string * string)) (key : string) (values : list string) : bool :=
  match assoc_s key l with Some v => smem v values | None => false end.
(** [labels.get(key, '')]. *)
Definition get_or_empty (l : list (string * string)) (key : string) : string :=
  match assoc_s key l with Some v => v | None => "" end.
Definition has_key (l : list (string * string)) (key : string) : bool :=
  match assoc_s key l with Some _ => true | None => false end.
(** str.endswith. *)
Fixpoint suffix_of (w s : string) : bool :=
  String.eqb w s || match s with EmptyString => false | String _ t => suffix_of w t end.
(** [values[0]]; the callers pass non-empty lists. *)
Definition first (values : list string) : string := match values with v :: _ => v | [] => "" end.

Section Selectors.
Context (cl : cluster).
(** The loops [for peer in self.peer_set: if f(peer): res.add(peer)]. *)
Definition select (f : peer -> bool) : peerset := fold_left (fun r p => if f p then padd p r else r) (cl_peers cl) [].
Definition ns_is (ns : option string) (p : peer) : bool :=
  match ns with
  | None => true
  | Some n => match cl_ns cl p with Some m => String.eqb m n | None => false end
  end.
(** get_peers_with_label, PeerContainer.py:86-117. *)
Definition peers_with_label (key : string) (values : list string) (a : faction) (ns : option string) : peerset :=
  select (fun p => ns_is ns p &&
    let l := cl_labels cl p in let e := cl_extra cl p in
    match a with
    | FIn => get_in l key values || get_in e key values
    | FNotIn => negb (get_in l key values) && negb (get_in e key values)
    | FContain => contains_str (first values) (get_or_empty l key) || contains_str (first values) (get_or_empty e key)
    | FStartWith => prefix (first values) (get_or_empty l key) || prefix (first values) (get_or_empty e key)
    | FEndWith => suffix_of (first values) (get_or_empty l key) || suffix_of (first values) (get_or_empty e key)
    end).
(** get_peers_with_key, PeerContainer.py:119-133. *)
Definition peers_with_key (ns : option string) (key : string) (does_not_exist : bool) : peerset :=
  select (fun p => ns_is ns p && xorb (has_key (cl_labels cl p) key || has_key (cl_extra cl p) key) does_not_exist).
(** get_namespace_pods_with_label, PeerContainer.py:135-164. *)
Definition ns_pods_with_label (key : string) (values : list string) (a : faction) : peerset :=
  select (fun p => match cl_ns cl p with
    | None => false
    | Some n =>
      let v := get_or_empty (cl_nslabels cl n) key in
      match a with
      | FIn => smem v values
      | FNotIn => negb (smem v values)
      | FContain => contains_str (first values) v
      | FStartWith => prefix (first values) v
      | FEndWith => suffix_of (first values) v
      end
    end).
(** get_namespace_pods_with_key, PeerContainer.py:166-179. *)
Definition ns_pods_with_key (key : string) (does_not_exist : bool) : peerset :=
  select (fun p => match cl_ns cl p with None => false | Some n => xorb (has_key (cl_nslabels cl n) key) does_not_exist end).
(** get_all_peers_group without arguments, PeerContainer.py:302-319. *)
Definition all_group : peerset := peers_group (cl_peers cl) false false.
(** get_namespace_pods, PeerContainer.py:181-193. *)
Definition namespace_pods (ns : option string) : peerset :=
  match ns with None => all_group | Some _ => select (ns_is ns) end.
End Selectors.

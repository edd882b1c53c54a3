(** * Model of the connectivity map: ConnectivityMapQuery, nca/NetworkConfig/NetworkConfigQuery.py:674-918, up to the firewall rules.

    [cl] gives the namespaces and labels of peers, [owner] and [workload] are Pod.owner_name and Pod.workload_name (Peer.py:140-164).  An IpBlock
    has no namespace and no labels here: the blocks are those of the connections, made by BasePeerSet.get_peer_set_by_indices. *)
From Coq Require Import ZArith List Bool Arith String Ascii.
From Verif Require Import IntervalModel TextModel PortProtoModel PeerModel PolicyModel QueryModel YamlModel ClusterModel FWModel.
Import ListNotations.
Local Open Scope string_scope.
Local Open Scope list_scope.
Local Open Scope nat_scope.

(** output_config.subset: the command line options (nca_cli.py:170-186) or a scheme file.  A missing key is [None]. *)
Record subset := Subset { sub_ns : option string; sub_dep : option string; sub_labels : option (list (list (string * string))) }.
Definition no_subset (s : subset) : bool := match s with Subset None None None => true | _ => false end.
(** subset.get(key) where an empty text is false, and the elements of the comma separated list. *)
Definition listed_in (o : option string) : list string := match o with Some t => if String.eqb t "" then [] else split "," t | None => [] end.
(** --label_subset, nca_cli.py:176-186 ([None]: ValueError): a dictionary per switch. *)
Definition label_pair (t : string) : option (string * string) := match split ":" t with [k; v] => Some (k, v) | _ => None end.
Definition put (m : list (string * string)) (kv : string * string) : list (string * string) :=
  if existsb (fun e => String.eqb (fst e) (fst kv)) m then map (fun e => if String.eqb (fst e) (fst kv) then kv else e) m else m ++ [kv].
Definition label_switch (t : string) : option (list (string * string)) :=
  option_map (fun l => fold_left put l []) (mapM label_pair (split "," t)).
Definition label_switches (l : list string) : option (list (list (string * string))) := mapM label_switch l.

Section Map.
Context (cl : cluster) (owner workload : peer -> string).
(** peer.namespace and peer.labels. *)
Definition ns_of (p : peer) : ns := match p with Named _ _ => cl_ns cl p | Block _ => None end.
Definition labels_of (p : peer) : list (string * string) := match p with Named _ _ => cl_labels cl p | Block _ => [] end.
(** str(peer.namespace). *)
Definition ns_text (n : ns) : string := match n with Some t => t | None => "None" end.
(** are_labels_all_included, lines 736-740. *)
Definition label_at (m : list (string * string)) (k : string) : option string := option_map snd (find (fun e => String.eqb (fst e) k) m).
Definition labels_included (target pool : list (string * string)) : bool :=
  forallb (fun kv => match label_at pool (fst kv) with Some v => String.eqb v (snd kv) | None => false end) target.
(** is_in_subset, lines 682-720; isinstance(peer, Pod) is kind 0. *)
Definition in_subset (s : subset) (p : peer) : bool :=
  no_subset s ||
  existsb (String.eqb (ns_text (ns_of p))) (listed_in (sub_ns s)) ||
  (is_pod p && negb (String.eqb (owner p) "") && existsb (fun d => contains_str d (if has_char "/" d then workload p else owner p)) (listed_in (sub_dep s))) ||
  (negb (match labels_of p with [] => true | _ => false end) &&
   match sub_labels s with Some l => existsb (fun t => labels_included t (labels_of p)) l | None => false end).
(** compute_subset, lines 722-734. *)
Definition compute_subset (s : subset) (peers : peerset) : peerset :=
  if no_subset s then peers else fold_left (fun r p => if in_subset s p then padd p r else r) peers [].

Section Conns.
Context {C : Type} (A : cops C) (Q : qops C) (h6 : @policy C -> bool).
(** compute_connectivity_output, lines 742-777: the connections and the peers for the output (the explanation is not modelled). *)
Definition map_conns (flag : bool) (s : subset) (g : @config C) : C * peerset :=
  let x := all_conns_of A g None in
  let peers := ps_union (peers_group (g_peers g) false true) (q_peers Q x) in
  let ex6 := excludes6 h6 flag g in
  let peers := if ex6 then mask_peers peers else peers in
  let x := if ex6 then c_and A x (c_rect A (Some peers) (Some peers) None) else x in
  let sub := compute_subset s peers in
  let x := if List.length sub =? List.length peers then x
           else c_and A x (c_or A (c_rect A (Some sub) None None) (c_rect A None (Some sub) None)) in
  (filter_by_peer_types A (g_peers g) x, peers).
(** does_contain_istio_layers, NetworkLayer.py:93-98. *)
Definition istio_layers (ls : @layers C) : bool := existsb (fun l => lname_eqb (fst l) LIstio || lname_eqb (fst l) LIstioGateway) ls.
(** convert_props_to_split_by_tcp, lines 906-918. *)
Definition split_by_tcp (x : C) : C * C := let t := c_and A x (c_rect A None None (Some true)) in (t, c_sub A x t).
(** The sets of connections that are written, with the restriction given to the writers, lines 778-783, 799-858. *)
Definition map_parts (flag : bool) (s : subset) (g : @config C) : list (option bool * C) :=
  let x := fst (map_conns flag s g) in
  if istio_layers (lays (g_pols g)) then [(Some true, fst (split_by_tcp x)); (Some false, snd (split_by_tcp x))] else [(None, x)].
End Conns.
End Map.

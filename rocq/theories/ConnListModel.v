(** * Model of the list of connections without firewall rules: ConnectivityGraph.add_props_to_graph and get_connections_without_fw_rules_txt_format,
      nca/FWRules/ConnectivityGraph.py:37-70, 306-335, as used by the connectivity map, nca/NetworkConfig/NetworkConfigQuery.py:796-842, 868-880.

    [name] is _get_peer_details(peer, True)[0] (lines 72-102); [word_text] gives the texts of hosts and paths; [allp] is
    peer_container.get_all_peers_group(True).  The graph of networkx and the labels of the cluster are not used by this output. *)
From Coq Require Import ZArith List Bool Arith String Ascii.
From Verif Require Import IntervalModel HyperModel HyperInst ConnModel TextModel PortProtoModel PeerModel ConnAlg StdDims QueryAlg GraphModel ConnTextModel FWAlg IpTextModel.
Import ListNotations.
Local Open Scope string_scope.
Local Open Scope list_scope.
Local Open Scope nat_scope.

Definition nl : string := String newline "".

(** _get_peer_details(peer, True)[0], lines 72-102, for output endpoints "pods": the range of an IP block (get_ip_range_or_cidr_str(True); IpTextFacts shows that the
    list of networks, which it computes too, never fails), the full name of any other peer. *)
Definition pod_name (p : peer) : string := match p with Named _ n => n | Block l => ranges_text l end.
(** For output endpoints "deployments", lines 92-97: the name of the replica set if there is one, else that of the workload, with square brackets. *)
Fixpoint brackets (s : string) : string :=
  match s with EmptyString => EmptyString | String c r => String (if Ascii.eqb c "(" then "["%char else if Ascii.eqb c ")" then "]"%char else c) (brackets r) end.
Definition deployment_name (replicaset workload : peer -> string) (p : peer) : string :=
  match p with
  | Named O _ => brackets (if String.eqb (replicaset p) "" then workload p else replicaset p)
  | _ => pod_name p
  end.

Section Lines.
Context (dom : dim -> val) (reg : list peer) (allp : peerset) (word_text : dim -> val -> string) (name : peer -> string).
Local Notation O := (val_ops dom).
(** [x or all_peers], ConnectivityProperties.py:481-484. *)
Definition or_all (s : peerset) : peerset := match s with [] => allp | _ => s end.
(** add_edges_from_cube_dict up to the loops, lines 46-57, with extract_src_dst_peers_from_cube, ConnectivityProperties.py:468-489: the properties
    without the peers, and the pairs of peers.  [restr]: TCP, non-TCP or no restriction ([None] result: get_peer_set_by_indices fails). *)
Definition cube_edges (restr : option bool) (h : hc val) (k : list val) : option (hc val * list (peer * peer)) :=
  let c := cube_at O (act_of h) k in
  bind (peers_of_val reg (c d_src)) (fun s => bind (peers_of_val reg (c d_dst)) (fun d =>
  Some (snd (split_cube dom std_all restr c), list_prod (ps_split (or_all s)) (ps_split (or_all d))))).
(** props_to_peers[props].append, lines 58-60: the first equal key. *)
Fixpoint add_edges (x : hc val) (l : list (peer * peer)) (m : list (hc val * list (peer * peer))) : list (hc val * list (peer * peer)) :=
  match m with
  | [] => match l with [] => [] | _ => [(x, l)] end
  | (y, l') :: m' => if hc_eqb O y x then (y, l' ++ l) :: m' else (y, l') :: add_edges x l m'
  end.
(** add_props_to_graph, lines 62-70, on a new graph. *)
Definition props_to_peers (restr : option bool) (h : hc val) : option (list (hc val * list (peer * peer))) :=
  bind (mapM (cube_edges restr h) (iter_cubes O std_all h)) (fun es => Some (fold_left (fun m e => add_edges (fst e) (snd e) m) es [])).
(** The body of the loops, lines 319-329: no line, or a line ([None] result: the text of the connections fails). *)
Definition edge_line (excl : bool) (e : hc val * (peer * peer)) : option (list string) :=
  match e with (x, (p, q)) =>
    if negb (hbool x) || peer_eqb p q || (excl && String.eqb (name p) (name q)) then Some []
    else bind (conn_text dom word_text std_all true x) (fun t => Some [(name p ++ " => " ++ name q ++ " : " ++ t)%string])
  end.
(** get_connections_without_fw_rules_txt_format, lines 306-335; an empty or missing message gives no header. *)
Definition list_text (header : option string) (excl : bool) (m : list (hc val * list (peer * peer))) : option string :=
  bind (mapM (edge_line excl) (flat_map (fun e => map (fun pq => (fst e, pq)) (snd e)) m)) (fun ls =>
  Some (join nl ((match header with Some t => if String.eqb t "" then [] else [t] | None => [] end) ++ sorted_set (List.concat ls)))).
(** txt_no_fw_rules_format_from_props, NetworkConfigQuery.py:868-880. *)
Definition part_header (restr : option bool) : option string :=
  match restr with Some true => Some "TCP Connections:" | Some false => Some "non-TCP Connections:" | None => None end.
Definition part_text (restr : option bool) (h : hc val) : option string :=
  bind (props_to_peers restr h) (fun m => list_text (part_header restr) true m).
(** get_props_output_full and get_props_output_split_by_tcp for this format, NetworkConfigQuery.py:808-810, 832-837: the parts with an empty line between. *)
Definition parts_text (parts : list (option bool * hc val)) : option string :=
  bind (mapM (fun part => part_text (fst part) (snd part)) parts) (fun l => Some (join (nl ++ nl)%string l)).
End Lines.

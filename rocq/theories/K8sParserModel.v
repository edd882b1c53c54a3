(** * Model of nca/Parsers/K8sPolicyYamlParser.py: from a decoded NetworkPolicy document to a policy.

    [net] is ipaddress.ip_network(text, strict=False) (Python library), [None] for ValueError/TypeError.  [mkc s d pr ps]
    is make_conn_props_from_dict({"dst_ports": ps, "protocols": {pr}, "src_peers": s, "dst_peers": d}) (ConnDict.v).
    The namespace of the policy is its name.  Not modelled: warnings, referenced_labels, has_ipv6_addresses. *)
From Coq Require Import ZArith List Bool Arith String.
From Verif Require Import IntervalModel TextModel PortProtoModel PeerModel PolicyModel YamlModel ClusterModel.
Import ListNotations.
Local Open Scope string_scope.
Local Open Scope list_scope.
Local Open Scope nat_scope.

Section Parser.
Context (cl : cluster) (net : yaml -> option cidr).

Fixpoint label_values (l : list yaml) : option (list string) :=
  match l with
  | [] => Some []
  | v :: t => bind (label_value_ok v) (fun s => bind (label_values t) (fun r => Some (s :: r)))
  end.
(** parse_label_selector_requirement, K8sPolicyYamlParser.py:118-150; the result also has the key (used at line 188). *)
Definition requirement_fields : list field :=
  [Field "key" Mandatory (Some TyStr) None;
   Field "operator" Mandatory (Some TyStr) (Some (among ["In"; "NotIn"; "Exists"; "DoesNotExist"]));
   Field "values" Optional (Some TyList) None].
Definition parse_requirement (ns : string) (for_ns : bool) (y : yaml) : option peerset :=
  bind (check_fields y requirement_fields) (fun m =>
  match yget m "key", yget m "operator" with
  | YStr key, YStr op =>
    if negb (label_key_ok key) then None
    else if smem op ["In"; "NotIn"] then
      if negb (ytrue (yget m "values")) then None
      else bind (label_values (ylist (yget m "values"))) (fun values =>
           let a := if String.eqb op "In" then FIn else FNotIn in
           Some (if for_ns then ns_pods_with_label cl key values a else peers_with_label cl key values a None))
    else if smem op ["Exists"; "DoesNotExist"] then
      if ytrue (yget m "values") then None
      else let dne := String.eqb op "DoesNotExist" in
           Some (if for_ns then ns_pods_with_key cl key dne else peers_with_key cl (Some ns) key dne)
    else None   (* operator "": the code returns None and [res &= None] raises *)
  | _, _ => None
  end).

(** [res &= s] *)
Definition meet (acc : option peerset) (s : option peerset) : option peerset :=
  bind acc (fun r => bind s (fun t => ps_inter r t)).
(** parse_label_selector, K8sPolicyYamlParser.py:152-202, for a dictionary or None (the callers check the type). *)
Definition parse_label_selector (ns : string) (for_ns : bool) (y : yaml) : option peerset :=
  match y with
  | YNull => Some []
  | _ =>
    if negb (ytrue y) then Some (all_group cl)
    else bind (check_fields y [Field "matchLabels" Optional (Some TyDict) None;
                               Field "matchExpressions" Optional (Some TyList) None]) (fun m =>
      let labels := match yget m "matchLabels" with YMap l => l | _ => [] end in
      let res := fold_left (fun acc kv => meet acc
                   (if label_key_ok (fst kv) then
                      bind (label_value_ok (snd kv)) (fun v =>
                        Some (if for_ns then ns_pods_with_label cl (fst kv) [v] FIn
                              else peers_with_label cl (fst kv) [v] FIn None))
                    else None)) labels (Some (all_group cl)) in
      fold_left (fun acc r => meet acc (parse_requirement ns for_ns r)) (ylist (yget m "matchExpressions")) res)
  end.

(** The except list of an ipBlock: None, or a list each of whose elements is passed to ip_network. *)
Fixpoint nets (l : list yaml) : option (list cidr) :=
  match l with
  | [] => Some []
  | y :: t => bind (net y) (fun c => bind (nets t) (fun r => Some (c :: r)))
  end.
(** parse_ip_block, K8sPolicyYamlParser.py:204-223, with IpBlock.__init__ (Peer.py:274-289: an empty cidr text leaves
    the block empty) and add_cidr (Peer.py:380-390). *)
Definition parse_ip_block (y : yaml) : option peerset :=
  bind (check_fields y [Field "cidr" Mandatory (Some TyStr) None; Field "except" Optional (Some TyList) None]) (fun m =>
    if negb (ytrue (yget m "cidr")) then Some [Block []]
    else bind (net (yget m "cidr")) (fun c => bind (nets (ylist (yget m "except"))) (fun es =>
         bind (add_cidr [] c es) (fun l => Some [Block l])))).

(** parse_peer, K8sPolicyYamlParser.py:225-258. *)
Definition parse_peer (ns : string) (y : yaml) : option peerset :=
  bind (check_fields y [Field "podSelector" Optional (Some TyDict) None; Field "namespaceSelector" Optional (Some TyDict) None;
                        Field "ipBlock" Optional (Some TyDict) None]) (fun m =>
  let pod := yget m "podSelector" in let nss := yget m "namespaceSelector" in let ipb := yget m "ipBlock" in
  if is_null pod && is_null nss && is_null ipb then None
  else if negb (is_null ipb) then
    if negb (is_null pod) || negb (is_null nss) then None else parse_ip_block ipb
  else
    bind (if is_null nss then Some (namespace_pods cl (Some ns)) else parse_label_selector ns true nss) (fun res =>
    if is_null pod then Some res
    else bind (parse_label_selector ns false pod) (fun sel => ps_inter sel res))).

(** validate_value_by_domain for dst_ports, DimensionsManager.py:167-187. *)
Definition port_in_domain (n : Z) : bool := (1 <=? n)%Z && (n <=? 65535)%Z.
(** parse_port, K8sPolicyYamlParser.py:260-303, followed by get_protocol_number (line 336). *)
Definition parse_port (y : yaml) : option (Z * portset) :=
  bind (check_fields y [Field "port" Optional None None;
                        Field "protocol" Optional (Some TyStr) (Some (among ["TCP"; "UDP"; "SCTP"]));
                        Field "endPort" Optional (Some TyInt) None]) (fun m =>
  let port := yget m "port" in let last := yget m "endPort" in
  let proto := match yget m "protocol" with YStr s => if String.eqb s "" then "TCP" else s | _ => "TCP" end in
  bind (get_protocol_number (ProtoName proto)) (fun pr =>
  let ports :=
    if negb (is_null port) && negb (is_null last) then
      match yint port, yint last with     (* a str port: syntax error, line 277 *)
      | Some a, Some b =>
        if port_in_domain a && port_in_domain b && (a <=? b)%Z then ps_add_range (ps_new false) a b else None
      | _, _ => None
      end
    else if negb (is_null port) then
      match port with
      | YStr s => if port_name_ok s then ps_add_port (ps_new false) (PName s) else None
      | _ => match yint port with
             | Some a => if port_in_domain a then ps_add_port (ps_new false) (PNum a) else None
             | None => None
             end
      end
    else if ytrue last then None
    else Some (ps_new true) in
  bind ports (fun ps => Some (pr, ps)))).

Section Rules.
Context {C : Type} (A : cops C) (mkc : peerset -> peerset -> Z -> portset -> C).

(** parse_ingress_egress_rule, K8sPolicyYamlParser.py:305-349; [ingress]: peer_array_key is 'from', else 'to'. *)
Definition parse_rule (ns : string) (ingress : bool) (selected : peerset) (y : yaml) : option (rule (C:=C)) :=
  let key := if ingress then "from" else "to" in
  bind (check_fields y [Field key Optional (Some TyList) None; Field "ports" Optional (Some TyList) None]) (fun m =>
  bind (match ylist (yget m key) with
        | [] => Some (peers_group (cl_peers cl) true true)
        | ps => fold_left (fun acc p => bind acc (fun r => bind (parse_peer ns p) (fun s => Some (ps_union r s)))) ps (Some [])
        end) (fun res =>
  let src := if ingress then res else selected in
  let dst := if ingress then selected else res in
  bind (match ylist (yget m "ports") with
        | [] => Some (c_rect A (Some src) (Some dst) None)
        | ports => fold_left (fun acc p => bind acc (fun r => bind (parse_port p) (fun q =>
                     Some (if pbool src && pbool dst then c_or A r (mkc src dst (fst q) (snd q)) else r)))) ports (Some (c_empty A))
        end) (fun props => Some (Rule Allow res [] props)))).

(** parse_policy, K8sPolicyYamlParser.py:377-436.  [Some None]: not a K8s NetworkPolicy. *)
Definition parse_policy (y : yaml) : option (option (policy (C:=C))) :=
  bind (parse_generic y ["NetworkPolicy"] ["networking.k8s.io/v1"; "extensions/v1beta1"] ["k8s"; "extensions"] true false false) (fun o =>
  match o with
  | None => Some None
  | Some (m, name, YStr ns) =>
    if negb (dns_subdomain_ok name && dns_label_ok ns) then None
    else match yget m "spec" with
    | YNull => Some (Some (Policy name ns TK8s false false [] [] [] None Allow))
    | spec =>
      bind (check_fields spec [Field "podSelector" Mandatory (Some TyDict) None; Field "ingress" Optional (Some TyList) None;
                               Field "egress" Optional (Some TyList) None;
                               Field "policyTypes" Optional (Some TyList)
                                 (Some (among_lists [["Ingress"]; ["Egress"]; ["Ingress"; "Egress"]]))]) (fun sp =>
      let types := ylist (yget sp "policyTypes") in
      let given := match types with [] => false | _ => true end in
      let aff_in := negb given || existsb (among ["Ingress"]) types in
      let aff_eg := (given && existsb (among ["Egress"]) types)
                    || (negb given && match assoc_s "egress" sp with Some _ => true | None => false end) in
      if (negb aff_in && negb (is_null (yget sp "ingress"))) || (negb aff_eg && negb (is_null (yget sp "egress"))) then None
      else bind (meet (parse_label_selector ns false (yget sp "podSelector")) (Some (namespace_pods cl (Some ns)))) (fun sel =>
           bind (mapM (parse_rule ns true sel) (ylist (yget sp "ingress"))) (fun ins =>
           bind (mapM (parse_rule ns false sel) (ylist (yget sp "egress"))) (fun egs =>
           Some (Some (Policy name ns TK8s aff_in aff_eg sel ins egs None Allow))))))
    end
  | Some _ => None      (* namespace: null *)
  end).
End Rules.
End Parser.

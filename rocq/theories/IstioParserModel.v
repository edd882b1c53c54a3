(** * Model of nca/Parsers/IstioPolicyYamlParser.py: from a decoded AuthorizationPolicy document to a policy.

    Value matching is in IstioValueModel.v.  [net] is ipaddress.ip_network(text, strict=False) (Python library), [None] for
    ValueError/TypeError.  [sa] is the service account name of a pod.  [mk k] is make_conn_props_from_dict(k) (ConnDict.v), [all]
    is make_all_props().  [dfa t] is MinDFA.dfa_from_regex(t) (greenery, a library) and [O] holds the set operations, as in
    HyperInst.v.  A namespace is its name.  Not modelled: warnings, referenced_labels, has_ipv6_addresses, findings. *)
From Coq Require Import ZArith List Bool Arith String Ascii.
From Verif Require Import IntervalModel TextModel PortProtoModel PeerModel HyperModel HyperInst ConnModel PolicyModel YamlModel ClusterModel
                          K8sParserModel CalicoSelectorModel CalicoParserModel ConnDict IstioValueModel.
Import ListNotations.
Local Open Scope string_scope.
Local Open Scope list_scope.
Local Open Scope nat_scope.

(** ** Checks on dictionaries *)
(** validate_existing_key_is_not_null, GenericYamlParser.py:165-173, for several keys. *)
Definition none_null (m : list (string * yaml)) (ks : list string) : bool :=
  forallb (fun k => negb (has m k && is_null (yget m k))) ks.
(** validate_array_not_empty and get_key_array_and_validate_not_empty, GenericYamlParser.py:175-198, for a key that has passed
    the type check: the array, if the key is given; an empty array is a syntax error. *)
Definition array_of (m : list (string * yaml)) (k : string) : option (option (list yaml)) :=
  match yget m k with YList [] => None | YList l => Some (Some l) | _ => Some None end.
(** validate_dict_elem_has_non_empty_array_value, GenericYamlParser.py:200-209: whether some value is not empty. *)
Definition some_array (m : list (string * yaml)) : bool :=
  existsb (fun kv => match snd kv with YList (_ :: _) => true | _ => false end) m.
(** d.get(k) of a key that has passed the type check and is not null: None or a list. *)
Definition list_at (m : list (string * yaml)) (k : string) : option (list yaml) :=
  match yget m k with YList l => Some l | _ => None end.
Definition or_nil {X} (o : option (list X)) : list X := match o with Some l => l | None => [] end.

(** ** Principals *)
(** re.search('cluster.local/ns/([\w-]+)/sa/([\w-]+)', text), IstioPolicyYamlParser.py:104-108.  The dot matches any character but
    a newline.  The classes do not hold a slash: a group ends where the characters of the class end. *)
Definition group_char (c : ascii) : bool := word_char c || Ascii.eqb c "-".
Fixpoint span (f : ascii -> bool) (l : list ascii) : list ascii * list ascii :=
  match l with
  | c :: t => if f c then let (a, b) := span f t in (c :: a, b) else ([], l)
  | [] => ([], [])
  end.
Fixpoint drop_prefix (p l : list ascii) : option (list ascii) :=
  match p, l with
  | [], _ => Some l
  | c :: p', d :: l' => if Ascii.eqb c d then drop_prefix p' l' else None
  | _ :: _, [] => None
  end.
Definition drop_any (l : list ascii) : option (list ascii) :=
  match l with c :: t => if Ascii.eqb c "010" then None else Some t | [] => None end.
Definition group (l : list ascii) : option (list ascii * list ascii) :=
  match span group_char l with ([], _) => None | (a, b) => Some (a, b) end.
Definition principal_at (l : list ascii) : option (string * string) :=
  bind (drop_prefix (text "cluster") l) (fun l => bind (drop_any l) (fun l => bind (drop_prefix (text "local/ns/") l) (fun l =>
  bind (group l) (fun g => bind (drop_prefix (text "/sa/") (snd g)) (fun l =>
  bind (group l) (fun h => Some (untext (fst g), untext (fst h)))))))).
(** _get_principal_str_components, IstioPolicyYamlParser.py:92-109. *)
Fixpoint principal_components (l : list ascii) : option (string * string) :=
  match principal_at l with
  | Some r => Some r
  | None => match l with _ :: t => principal_components t | [] => None end
  end.
Definition principal_text (ns sa : string) : string := ("cluster.local/ns/" ++ ns ++ "/sa/" ++ sa)%string.

(** ** Ports *)
(** _parse_port, IstioPolicyYamlParser.py:225-241.  Simplification: a float is rejected (Python truncates it). *)
Definition port_number (y : yaml) : option Z := match y with YStr s => py_int s | _ => yint y end.
Definition istio_port (y : yaml) : option portset :=
  bind (port_number y) (fun n => if port_in_domain n then ps_add_port (ps_new false) (PNum n) else None).
(** get_rule_ports, IstioPolicyYamlParser.py:244-263. *)
Definition istio_ports (pos neg : option (list yaml)) : option portset :=
  bind (match pos with
        | Some l => fold_left (fun acc p => bind acc (fun r => bind (istio_port p) (fun q => ps_or r q))) l (Some (ps_new false))
        | None => Some (ps_new true)
        end) (fun ps =>
  fold_left (fun acc p => bind acc (fun r => bind (istio_port p) (fun q => Some (ps_sub r q)))) (or_nil neg) (Some ps)).

(** ** Methods *)
(** _parse_method, IstioPolicyYamlParser.py:332-348; a list or dictionary that is not empty cannot be put in the warning. *)
Definition istio_method (y : yaml) : option iset :=
  bind (enumerated_yaml y all_methods) (fun ms =>
  bind (fold_left (fun acc x => bind acc (fun r => m_add r x)) ms (Some [])) (fun r =>
  match r, y with
  | _ :: _, _ => Some r
  | [], YStr _ => Some []
  | [], _ => if ytrue y then None else Some []
  end)).
(** _get_methods_set, IstioPolicyYamlParser.py:350-369. *)
Definition istio_methods (pos neg : option (list yaml)) : option iset :=
  bind (match pos with
        | Some l => fold_left (fun acc p => bind acc (fun r => bind (istio_method p) (fun q => iset_or r q))) l (Some [])
        | None => Some whole_methods
        end) (fun ms =>
  fold_left (fun acc p => bind acc (fun r => bind (istio_method p) (fun q => Some (iset_sub r q)))) (or_nil neg) (Some ms)).

Section Parser.
Context (cl : cluster) (net : yaml -> option cidr) (sa : peer -> string) (O : vops val Z) (dfa : list ascii -> val).

(** parse_regex_dimension_values, IstioPolicyYamlParser.py:300-330, for the dimension [d]. *)
Definition istio_words (d : dim) (pos neg : option (list yaml)) : option (option val) :=
  match pos, neg with
  | None, None => Some None
  | _, _ =>
    bind (match pos with Some l => option_map dfa (values_regex l) | None => Some (vdom O d) end) (fun v =>
    match neg with
    | None => Some (Some v)
    | Some l => bind (values_regex l) (fun t => Some (Some (vsub O v (dfa t))))
    end)
  end.

(** _get_all_principals_str_list_from_topology, IstioPolicyYamlParser.py:35-45: a HostEndpoint has no service_account_name. *)
Definition principals : option (list string) :=
  mapM (fun p => if is_hep p then None
                 else Some (principal_text (match cl_ns cl p with Some n => n | None => "None" end) (sa p))) (all_group cl).
(** get_pods_with_service_account_name, PeerContainer.py:271-282. *)
Definition is_pod (p : peer) : bool := match p with Named k _ => Nat.eqb k 0 | Block _ => false end.
Definition sa_pods (name ns : string) : peerset :=
  select cl (fun p => is_pod p && String.eqb (sa p) name && match cl_ns cl p with Some n => String.eqb n ns | None => false end).
(** _parse_principal_str, IstioPolicyYamlParser.py:111-126. *)
Definition principal_peers (y : yaml) : option peerset :=
  bind principals (fun ps => bind (enumerated_yaml y ps) (fun vs =>
  Some (fold_left (fun r v => match principal_components (text v) with Some (n, s) => ps_union r (sa_pods s n) | None => r end) vs []))).
(** [for x in l: r |= f(x)] and [for x in l: r -= f(x)]. *)
Definition union_all (f : yaml -> option peerset) (l : list yaml) (r : peerset) : option peerset :=
  fold_left (fun acc x => bind acc (fun r => bind (f x) (fun s => Some (ps_union r s)))) l (Some r).
Definition minus_all (f : yaml -> option peerset) (l : list yaml) (r : peerset) : option peerset :=
  fold_left (fun acc x => bind acc (fun r => bind (f x) (fun s => ps_diff r s))) l (Some r).
(** parse_principals, IstioPolicyYamlParser.py:128-141. *)
Definition parse_principals (pos neg : option (list yaml)) : option peerset :=
  bind (union_all principal_peers (or_nil pos) (match pos with Some _ => [] | None => all_group cl end))
       (minus_all principal_peers (or_nil neg)).

(** parse_ip_block, IstioPolicyYamlParser.py:161-180.  Without ipBlocks the first loop runs over the intervals of the block of
    all addresses; IpBlock(interval) raises a ValueError. *)
Definition parse_ips (pos neg : option (list yaml)) : option peerset :=
  match pos with
  | None => None
  | Some l =>
    bind (fold_left (fun acc d => bind acc (fun r => bind (ip_block net d) (fun b => ipb_or r b))) l (Some [])) (fun r =>
    bind (fold_left (fun acc d => bind acc (fun r => bind (ip_block net d) (fun b => Some (ipb_sub r b)))) (or_nil neg) (Some r)) (fun r =>
    Some (map Block (ipb_split r))))
  end.

Section Namespace.
(** [nss]: the names of the namespaces in the peer container. *)
Context (nss : list string).
(** _parse_ns_str, IstioPolicyYamlParser.py:77-90. *)
Definition ns_peers (y : yaml) : option peerset :=
  bind (enumerated_yaml y nss) (fun vs => Some (fold_left (fun r n => ps_union r (namespace_pods cl (Some n))) vs [])).
(** parse_namespaces, IstioPolicyYamlParser.py:143-159. *)
Definition parse_namespaces (pos neg : option (list yaml)) : option peerset :=
  bind (union_all ns_peers (match pos with Some l => l | None => map YStr nss end) []) (minus_all ns_peers (or_nil neg)).

(** parse_source, IstioPolicyYamlParser.py:403-458. *)
Definition source_keys : list string := ["namespaces"; "notNamespaces"; "ipBlocks"; "notIpBlocks"; "principals"; "notPrincipals"].
Definition source_fields : list field :=
  map (fun k => Field k Optional (Some TyList) None) source_keys
  ++ map (fun k => Field k Unsupported None None) ["requestPrincipals"; "notRequestPrincipals"; "remoteIpBlocks"; "notRemoteIpBlocks"].
Definition parse_source (y : yaml) : option peerset :=
  bind (check_fields y [Field "source" Mandatory (Some TyDict) None]) (fun d =>
  bind (check_fields (yget d "source") source_fields) (fun m =>
  if negb (none_null m source_keys && some_array m) then None
  else
    let has_ns := has m "namespaces" || has m "notNamespaces" in
    let has_ip := has m "ipBlocks" || has m "notIpBlocks" in
    let has_pr := has m "principals" || has m "notPrincipals" in
    if has_ip && (has_pr || has_ns) then Some []
    else
      let res := peers_group (cl_peers cl) true false in
      bind (if has_pr then bind (parse_principals (list_at m "principals") (list_at m "notPrincipals")) (ps_inter res) else Some res) (fun res =>
      if has_ns then bind (parse_namespaces (list_at m "namespaces") (list_at m "notNamespaces")) (ps_inter res)
      else if has_ip then bind (parse_ips (list_at m "ipBlocks") (list_at m "notIpBlocks")) (ps_inter res)
      else Some res))).

Section Rules.
Context {C : Type} (A : cops C) (mk : cdict -> C) (all : C).

(** parse_operation, IstioPolicyYamlParser.py:371-401. *)
Definition operation_keys : list string := ["ports"; "notPorts"; "hosts"; "notHosts"; "methods"; "notMethods"; "paths"; "notPaths"].
Definition parse_operation (y : yaml) : option C :=
  bind (check_fields y [Field "operation" Mandatory (Some TyDict) None]) (fun d =>
  bind (check_fields (yget d "operation") (map (fun k => Field k Optional (Some TyList) None) operation_keys)) (fun m =>
  if negb (none_null m operation_keys && some_array m) then None
  else
    bind (istio_ports (list_at m "ports") (list_at m "notPorts")) (fun ports =>
    bind (istio_methods (list_at m "methods") (list_at m "notMethods")) (fun methods =>
    bind (istio_words 7 (list_at m "paths") (list_at m "notPaths")) (fun paths =>
    bind (istio_words 6 (list_at m "hosts") (list_at m "notHosts")) (fun hosts =>
    Some (mk (CDict None None None None (Some ports) (Some methods) hosts paths None None)))))))).

(** parse_condition and parse_key_values, IstioPolicyYamlParser.py:182-222: a set of sources, connections, or (for the empty key,
    which passes the check of allowed values) neither. *)
Inductive condition := OnPeers (s : peerset) | OnConns (c : C) | Neither.
Definition condition_keys : list string := ["source.ip"; "source.namespace"; "source.principal"; "destination.port"].
Definition not_empty (o : option (list yaml)) : bool := match o with Some (_ :: _) => true | _ => false end.
Definition parse_condition (y : yaml) : option condition :=
  bind (check_fields y [Field "key" Mandatory (Some TyStr) (Some (among condition_keys)); Field "values" Optional (Some TyList) None;
                        Field "notValues" Optional (Some TyList) None]) (fun m =>
  if negb (none_null m ["key"; "values"; "notValues"]) then None
  else
    let values := list_at m "values" in let not_values := list_at m "notValues" in
    if negb (not_empty values || not_empty not_values) then None
    else match yget m "key" with
    | YStr key =>
      if String.eqb key "source.ip" then option_map OnPeers (parse_ips values not_values)
      else if String.eqb key "source.namespace" then option_map OnPeers (parse_namespaces values not_values)
      else if String.eqb key "source.principal" then option_map OnPeers (parse_principals values not_values)
      else if String.eqb key "destination.port" then
        bind (istio_ports values not_values) (fun ports => Some (OnConns (mk (CDict None None None None (Some ports) None None None None None))))
      else Some Neither
    | _ => None
    end).

(** parse_ingress_rule, IstioPolicyYamlParser.py:462-522. *)
Definition tcp_props : C := mk (CDict None None (Some (single 6)) None None None None None None None).
Definition istio_rule (selected : peerset) (y : yaml) : option (rule (C:=C)) :=
  bind (check_fields y (map (fun k => Field k Optional (Some TyList) None) ["from"; "to"; "when"])) (fun m =>
  if negb (none_null m ["from"; "to"; "when"]) then None
  else
    bind (bind (array_of m "from") (fun o => match o with
          | Some l => union_all parse_source l []
          | None => Some (peers_group (cl_peers cl) true false)
          end)) (fun peers =>
    bind (bind (array_of m "to") (fun o => match o with
          | Some l => bind (fold_left (fun acc x => bind acc (fun r => bind (parse_operation x) (fun c => Some (c_or A r c)))) l (Some (c_empty A)))
                           (fun c => Some (c_and A c tcp_props))
          | None => let g := peers_group (cl_peers cl) true true in
                    Some (mk (CDict (Some g) (Some g) None None None None None None None None))
          end)) (fun conns =>
    bind (match list_at m "when" with
          | Some l => bind (fold_left (fun acc x => bind acc (fun st => bind (parse_condition x) (fun c =>
                              match c with
                              | OnPeers s => bind (ps_inter (fst st) s) (fun p => Some (p, snd st))
                              | OnConns c => Some (fst st, c_and A (snd st) c)
                              | Neither => Some st
                              end))) l (Some (peers, all)))
                           (fun st => Some (fst st, c_and A (snd st) tcp_props))
          | None => Some (peers, all)
          end) (fun st =>
    let peers := fst st in
    let cond := if negb (pbool peers) || negb (pbool selected) then c_empty A
                else c_and A (snd st) (mk (CDict (Some peers) (Some selected) None None None None None None None None)) in
    Some (Rule Allow peers [] (c_and A conns cond)))))).
End Rules.
End Namespace.

(** istio_root_namespace, IstioGenericYamlParser.py:10. *)
Definition root_namespace : string := "istio-config".
(** _parse_workload_selector, IstioGenericYamlParser.py:30-57. *)
Definition workload_selector (key : string) (y : yaml) : option peerset :=
  if negb (ytrue y) then Some (all_group cl)
  else bind (check_fields y [Field key Mandatory (Some TyDict) None]) (fun m =>
       match yget m key with
       | YMap (kv :: t) =>
         fold_left (fun acc kv => meet acc (Some (match snd kv with YStr v => peers_with_label cl (fst kv) [v] FIn None | _ => [] end)))
                   (kv :: t) (Some (all_group cl))
       | _ => None
       end).
(** update_policy_peers, IstioGenericYamlParser.py:59-77. *)
Definition policy_peers (ns key : string) (y : yaml) : option peerset :=
  bind (match y with
        | YNull => Some (filter (fun p => negb (is_hep p)) (all_group cl))
        | _ => workload_selector key y
        end) (fun sel =>
  if String.eqb ns root_namespace then Some sel else ps_inter sel (namespace_pods cl (Some ns))).

Section Policy.
Context {C : Type} (A : cops C) (mk : cdict -> C) (all : C) (nss : list string).
(** get_namespace, PeerContainer.py:57-72, adds a missing namespace. *)
Definition with_namespace (ns : string) : list string := if smem ns nss then nss else nss ++ [ns].
(** The name of the K8sNamespace object made for a text, K8sNamespace.py:10-11. *)
Definition ns_name (ns : string) : string := if String.eqb ns "" then "default" else ns.
(** parse_policy, IstioPolicyYamlParser.py:536-578.  [Some None]: not an AuthorizationPolicy.  Simplification: a namespace that
    is null is rejected (Python puts the key None into the dictionary of namespaces). *)
Definition istio_policy (y : yaml) : option (option (policy (C:=C))) :=
  bind (parse_generic y ["AuthorizationPolicy"] ["security.istio.io/v1beta1"; "security.istio.io/v1"] ["istio"] false false false) (fun o =>
  match o with
  | None => Some None
  | Some (m, name, YStr ns) =>
    match yget m "spec" with
    | YNull => Some (Some (Policy name (ns_name ns) TIstioAP false false [] [] [] None Allow))
    | spec =>
      bind (check_fields spec [Field "action" Optional (Some TyStr) (Some (among ["ALLOW"; "DENY"])); Field "rules" Optional (Some TyList) None;
                               Field "selector" Optional (Some TyDict) None; Field "provider" Unsupported None None]) (fun sp =>
      let act := match yget sp "action" with YStr a => if String.eqb a "DENY" then Deny else Allow | _ => Allow end in
      bind (policy_peers (ns_name ns) "matchLabels" (yget sp "selector")) (fun sel =>
      bind (bind (match yget_list sp "rules" with YList l => Some l | _ => None end)
                 (mapM (istio_rule (with_namespace ns) A mk all sel))) (fun rules =>
      match act, rules with
      | Deny, [] => None
      | _, _ => Some (Some (Policy name (ns_name ns) TIstioAP true false sel rules [] None act))
      end)))
    end
  | Some _ => None
  end).
End Policy.
End Parser.

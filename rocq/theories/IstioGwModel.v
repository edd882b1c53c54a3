(** * Istio Gateways and VirtualServices: nca/Parsers/IstioGatewayYamlParser.py, IstioVirtualServiceYamlParser.py, IstioGatewayPolicyGenerator.py,
    Resources/OtherResources/Gateway.py and VirtualService.py.

    Not modelled: warnings, findings, file names, line numbers and origins, missing_istio_gw_pods_with_labels, used_gateways, the port of a
    server and only_local_traffic (used for warnings only). *)
From Coq Require Import ZArith List Bool Arith String Ascii.
From Verif Require Import IntervalModel TextModel PortProtoModel PeerModel HyperModel HyperInst ConnModel PolicyModel ConnAlg StdDims YamlModel ClusterModel
                          K8sParserModel CalicoSelectorModel CalicoParserModel ConnDict IstioValueModel IstioParserModel ServiceModel SidecarModel IngressModel.
Import ListNotations.
Local Open Scope string_scope.
Local Open Scope list_scope.
Local Open Scope nat_scope.

(** Gateway, Gateway.py:12-84: the full name, whether the type is Egress (else Ingress), peers and all_hosts_dfa. *)
Record gateway := Gw { gw_name : string; gw_egress : bool; gw_peers : peerset; gw_hosts : option val }.
(** VirtualService.Destination, VirtualService.py:15-33. *)
Record dest := Dest { ds_name : string; ds_pods : peerset; ds_ports : portset }.
(** VirtualService.Route, VirtualService.py:34-64. *)
Record route := Route { rt_internal : option bool; rt_dests : list dest; rt_uri : option val; rt_methods : option iset; rt_sni : option val; rt_gateways : list string }.
Definition route0 : route := Route None [] None None None [].
(** VirtualService, VirtualService.py:103-125: the full name, the name of the namespace, hosts_dfa, gateway_names and the routes. *)
Record vservice := VS { vs_name : string; vs_ns : string; vs_hosts : list val; vs_gateways : list string; vs_http : list route; vs_tls : list route; vs_tcp : list route }.

(** str(namespace) + '/' + name, Gateway.py:69-73, VirtualService.py:122-126, 165. *)
Definition slash_name (ns name : string) : string := (ns ++ "/" ++ name)%string.
(** A dictionary with the full names as keys: a later value takes the place of the earlier one. *)
Fixpoint put_named {X} (key : X -> string) (x : X) (l : list X) : list X :=
  match l with
  | [] => [x]
  | y :: t => if String.eqb (key x) (key y) then x :: t else y :: put_named key x t
  end.
Definition istio_networking : list string := ["networking.istio.io/v1alpha3"; "networking.istio.io/v1beta1"].
(** [for x in value or []] for a value whose type has not been checked; the characters of a text and the keys of a dictionary fail in the check of their fields. *)
Definition items_of (y : yaml) : option (list yaml) := match y with YList l => Some l | _ => if ytrue y then None else Some [] end.

Section Parse.
Context (dom : dim -> val) (cl : cluster) (ks : list k8s_service) (svcs : list service) (dfa : list ascii -> val).
(** re.match(regular expression, text). *)
Context (rematch : list ascii -> list ascii -> bool).
Let O := val_ops dom.

(** parse_host_value, GenericGatewayYamlParser.py:59-70; [Some None]: None. *)
Definition gw_host (y : yaml) : option (option val) :=
  match y with
  | YStr s => if existsb (Ascii.eqb "/") (text s) then Some None else parse_host dom dfa y
  | _ => None
  end.
(** [if a: a |= v else: a = v]: Gateway.py:40-49, 75-84, VirtualService.py:83-91. *)
Definition or_word (a : option val) (v : val) : val := match a with Some u => if vbool O u then vor O u v else v | None => v end.

(** ** Gateways *)
(** The loop over the hosts of a server, IstioGatewayYamlParser.py:112-116. *)
Definition server_hosts (l : list yaml) : option (option val) :=
  fold_left (fun acc y => bind acc (fun a => bind (gw_host y) (fun o =>
    Some (match o with Some v => if vbool O v then Some (or_word a v) else a | None => a end)))) l (Some None).
(** One turn of the loop of parse_gateway_servers, with parse_gateway_port, IstioGatewayYamlParser.py:106-129: hosts_dfa. *)
Definition parse_server (y : yaml) : option val :=
  bind (check_fields y [Field "port" Mandatory None None; Field "bind" Optional (Some TyStr) None; Field "hosts" Mandatory (Some TyList) None;
                        Field "tls" Optional None None; Field "name" Optional (Some TyStr) None]) (fun m =>
  bind (check_fields (yget m "port") [Field "number" Mandatory (Some TyInt) None; Field "protocol" Mandatory (Some TyStr) None;
                                      Field "name" Mandatory (Some TyStr) None; Field "targetPort" Ignored (Some TyStr) None]) (fun _ =>
  bind (server_hosts (ylist (yget m "hosts"))) (fun o =>
  match o with Some v => if vbool O v then Some v else None | None => None end))).
Definition parse_servers (l : list yaml) : option (option val) :=
  fold_left (fun acc y => bind acc (fun a => bind (parse_server y) (fun v => Some (Some (or_word a v))))) l (Some None).
(** The loop over the selector, IstioGatewayYamlParser.py:72-85: the type ... *)
Definition gateway_type (sel : list (string * yaml)) : option bool :=
  match assoc_s "istio" sel with
  | Some (YStr v) => if String.eqb v "ingressgateway" then Some false else if String.eqb v "egressgateway" then Some true else None
  | _ => None
  end.
(** ... and the peers. *)
Definition gateway_peers (sel : list (string * yaml)) : option peerset :=
  fold_left (fun acc kv => bind acc (fun r =>
    match (match snd kv with YStr v => peers_with_label cl (fst kv) [v] FIn None | _ => [] end) with
    | [] => Some []
    | s => ps_inter r s
    end)) sel (Some (all_group cl)).
(** parse_gateway, IstioGatewayYamlParser.py:52-95; [gs] is self.gateways.  Simplification: a namespace that is null is rejected. *)
Definition parse_gateway (gs : list gateway) (y : yaml) : option (list gateway) :=
  bind (parse_generic y ["Gateway"] istio_networking ["istio"] false false true) (fun o =>
  match o with
  | None => Some gs
  | Some (m, name, YStr t) =>
    bind (check_fields (yget m "spec") [Field "selector" Mandatory (Some TyDict) None; Field "servers" Mandatory (Some TyList) None]) (fun sp =>
    match yget sp "selector" with
    | YMap sel =>
      bind (gateway_peers sel) (fun peers =>
      match gateway_type sel, peers with
      | None, _ | _, [] => Some gs
      | Some eg, _ => bind (parse_servers (ylist (yget sp "servers"))) (fun hosts =>
                      Some (put_named gw_name (Gw (slash_name (ns_name t) name) eg peers hosts) gs))
      end)
    | _ => None
    end)
  | Some _ => None
  end).

(** ** VirtualServices *)
(** add_mesh and add_gateway, VirtualService.py:157-174. *)
Definition add_mesh (l : list string) : list string := if smem "mesh" l then l else l ++ ["mesh"].
(** One turn of the loop of parse_vs_gateways, IstioVirtualServiceYamlParser.py:92-102.  The name with a namespace given. *)
Definition full_gateway (ns s : string) : string :=
  match index 0 "/" s with
  | Some i => slash_name (ns_name (substring 0 i s)) (substring (S i) (String.length s - S i) s)
  | None => slash_name ns s
  end.
Definition add_gateway (ns : string) (l : list string) (y : yaml) : option (list string) :=
  match y with YStr s => Some (if String.eqb s "mesh" then add_mesh l else l ++ [full_gateway ns s]) | _ => None end.
(** parse_vs_gateways, IstioVirtualServiceYamlParser.py:74-102. *)
Definition vs_gateway_names (ns : string) (m : list (string * yaml)) (global : bool) (l : list string) : option (list string) :=
  match ylist (yget m "gateways") with
  | [] => Some (if global then add_mesh l else l)
  | ys => fold_left (fun acc y => bind acc (fun l => add_gateway ns l y)) ys (Some l)
  end.

(** The beginning of parse_istio_regex_string, IstioVirtualServiceYamlParser.py:161-182: the kind (exact, prefix, regex) and the text; [Some None]: None.
    Simplification: a value that is not a text is rejected. *)
Definition string_match (m : list (string * yaml)) (k : string) : option (option (string * string)) :=
  match yget m k with
  | YMap [(kind, v)] => if smem kind ["exact"; "prefix"; "regex"] then match v with YStr s => Some (Some (kind, s)) | _ => None end else Some None
  | YMap _ => Some None
  | v => if ytrue v then None else Some None
  end.
(** parse_istio_regex_string for 'uri'.  The result of regex.replace (line 176) is not used; ignoreUriCase (line 177) is not among the fields of a match. *)
Definition uri_match (m : list (string * yaml)) : option (option val) :=
  option_map (option_map (fun ks : string * string =>
    if String.eqb (fst ks) "prefix" then prefix_dfa dom dfa (text (snd ks)) else dfa (text (snd ks)))) (string_match m "uri").
(** ... and for 'method', with add_methods_from_regex, MethodSet.py:34-42. *)
Definition method_match (m : list (string * yaml)) : option (option iset) :=
  bind (string_match m "method") (fun o =>
  match o with
  | None => Some None
  | Some ks => let t := if String.eqb (fst ks) "prefix" then text (snd ks) ++ allowed_chars ++ ["*"%char] else text (snd ks) in
               option_map Some (m_add_regex [] (fun x => rematch t (text x)))
  end).
(** add_methods, VirtualService.py:93-101. *)
Definition or_methods (a : option iset) (m : iset) : option iset := match a with Some ((_ :: _) as u) => iset_or u m | _ => Some m end.
(** One turn of the loop of parse_http_match_request, IstioVirtualServiceYamlParser.py:201-217. *)
Definition http_match (ns : string) (r : route) (y : yaml) : option route :=
  bind (check_fields y [Field "name" Optional (Some TyStr) None; Field "uri" Optional None None; Field "scheme" Ignored None None; Field "method" Optional None None;
                        Field "authority" Ignored None None; Field "headers" Ignored (Some TyDict) None; Field "withoutHeaders" Ignored None None;
                        Field "port" Ignored (Some TyInt) None; Field "sourceLabels" Ignored (Some TyDict) None; Field "gateways" Optional (Some TyList) None;
                        Field "queryParams" Ignored (Some TyDict) None; Field "sourceNamespace" Ignored (Some TyStr) None]) (fun m =>
  bind (uri_match m) (fun u =>
  bind (method_match m) (fun ms =>
  bind (or_methods (rt_methods r) (match ms with Some ((_ :: _) as x) => x | _ => whole_methods end)) (fun ms' =>
  bind (vs_gateway_names ns m false (rt_gateways r)) (fun gws =>
  Some (Route (rt_internal r) (rt_dests r) (match u with Some v => if vbool O v then Some (or_word (rt_uri r) v) else rt_uri r | None => rt_uri r end)
              (Some ms') (rt_sni r) gws)))))).
(** The loop over sniHosts, IstioVirtualServiceYamlParser.py:237-242; [|=] with None raises an exception. *)
Definition sni_step (acc : option (option val)) (y : yaml) : option (option val) :=
  bind acc (fun a => bind (gw_host y) (fun o =>
  match a, o with
  | Some u, Some v => Some (Some (if vbool O u then vor O u v else v))
  | Some u, None => if vbool O u then None else Some None
  | None, _ => Some o
  end)).
(** reduce(MinDFA.__or__, hosts_dfa); an empty list raises an exception. *)
Definition all_hosts (l : list val) : option val := match l with [] => None | v :: t => Some (fold_left (vor O) t v) end.
(** One turn of the loop of parse_tls_match_attributes, IstioVirtualServiceYamlParser.py:231-250; [Some None]: return False. *)
Definition tls_match (ns : string) (hosts : list val) (r : route) (y : yaml) : option (option route) :=
  bind (check_fields y [Field "sniHosts" Mandatory (Some TyList) None; Field "destinationSubnets" Ignored (Some TyList) None; Field "port" Ignored (Some TyInt) None;
                        Field "sourceLabels" Ignored (Some TyDict) None; Field "gateways" Optional (Some TyList) None; Field "sourceNamespace" Ignored (Some TyStr) None]) (fun m =>
  bind (fold_left sni_step (ylist (yget m "sniHosts")) (Some (rt_sni r))) (fun sni =>
  bind (all_hosts hosts) (fun h =>
  bind sni (fun s =>
  if negb (vcont O s h) then Some None
  else bind (vs_gateway_names ns m false (rt_gateways r)) (fun gws =>
       Some (Some (Route (rt_internal r) (rt_dests r) (rt_uri r) (rt_methods r) sni gws))))))).
(** One turn of the loop of parse_l4_match_attributes, IstioVirtualServiceYamlParser.py:264-271. *)
Definition l4_match (ns : string) (r : route) (y : yaml) : option route :=
  bind (check_fields y [Field "destinationSubnets" Ignored (Some TyList) None; Field "port" Ignored (Some TyInt) None; Field "sourceLabels" Ignored (Some TyDict) None;
                        Field "gateways" Optional (Some TyList) None; Field "sourceNamespace" Ignored (Some TyStr) None]) (fun m =>
  bind (vs_gateway_names ns m false (rt_gateways r)) (fun gws =>
  Some (Route (rt_internal r) (rt_dests r) (rt_uri r) (rt_methods r) (rt_sni r) gws))).

(** is_local_service and get_local_service, IstioVirtualServiceYamlParser.py:348-375, for a host without stars: the name and the namespace
    of a local service; [None]: not local. *)
Definition local_service (ns host : string) : option (string * string) :=
  match split "." host with
  | [a; b; c; d; e] => if String.eqb c "svc" && String.eqb d "cluster" && String.eqb e "local" then Some (a, ns_name b) else None
  | [a] => Some (a, ns)
  | _ => None
  end.
(** get_single_port, K8sService.py:83-84. *)
Definition single_port (ps : list sport) : option sport := match ps with [p] => Some p | _ => None end.
(** add_destination, VirtualService.py:65-81. *)
Definition add_destination (r : route) (name : string) (pods : peerset) (port : yaml) (internal : bool) : option route :=
  bind (if ytrue port then target_ports port else Some (PortSet [] [] [])) (fun ports =>
  if match rt_internal r with Some b => Bool.eqb b internal | None => true end
  then Some (Route (Some internal) (rt_dests r ++ [Dest name pods ports]) (rt_uri r) (rt_methods r) (rt_sni r) (rt_gateways r))
  else None).
(** parse_destination, IstioVirtualServiceYamlParser.py:300-345. *)
Definition parse_destination (ns : string) (r : route) (y : yaml) : option route :=
  bind (check_fields y [Field "host" Mandatory (Some TyStr) None; Field "subset" Ignored (Some TyStr) None; Field "port" Optional None None]) (fun m =>
  bind (match yget m "port" with YMap pm => Some (yget pm "number") | v => if ytrue v then None else Some YNull end) (fun num =>
  match yget m "host" with
  | YStr host =>
    if has_star (text host) then None
    else match local_service ns host with
    | Some (name, sns) =>
      if String.eqb name "" then None
      else match find_service ks svcs sns name with
      | None => Some r
      | Some (ports, pods) =>
        bind (if ytrue num then option_map sp_target (find_port ports YNull num) else Some YNull) (fun t =>
        let t' := if ytrue t then t else match single_port ports with Some p => sp_target p | None => YNull end in
        add_destination r host pods t' true)
      end
    | None =>
      match dns_matching cl host with
      | [] => Some r
      | s => add_destination r host s num false
      end
    end
  | _ => None
  end)).
(** parse_route_destinations, IstioVirtualServiceYamlParser.py:273-298; [rm] is the route resource. *)
Definition route_destinations (ns : string) (http : bool) (rm : list (string * yaml)) (r : route) : option route :=
  bind (items_of (yget rm "route")) (fun ys =>
  fold_left (fun acc y => bind acc (fun r =>
    bind (check_fields y ([Field "destination" Mandatory None None; Field "weight" Optional (Some TyInt) None] ++
                          if http then [Field "headers" Ignored (Some TyDict) None] else [])) (fun m =>
    parse_destination ns r (yget m "destination")))) ys (Some r)).
(** One turn of the loop of parse_vs_http_route, IstioVirtualServiceYamlParser.py:111-119, with parse_http_match_request (198-200). *)
Definition http_route (ns : string) (y : yaml) : option route :=
  bind (check_fields y [Field "name" Optional (Some TyStr) None; Field "match" Optional None None; Field "route" Optional None None; Field "redirect" Ignored None None;
                        Field "delegate" Ignored None None; Field "rewrite" Optional None None; Field "timeout" Optional None None; Field "retries" Optional None None;
                        Field "fault" Optional None None; Field "mirror" Ignored None None; Field "mirrorPercentage" Optional None None;
                        Field "corsPolicy" Ignored None None; Field "headers" Ignored None None]) (fun m =>
  bind (items_of (yget m "match")) (fun ys =>
  bind (fold_left (fun acc y => bind acc (fun r => http_match ns r y)) ys (Some route0)) (fun r =>
  route_destinations ns true m r))).
(** One turn of the loop of parse_vs_tls_route, IstioVirtualServiceYamlParser.py:128-134; [Some None]: the route is ignored. *)
Fixpoint tls_matches (ns : string) (hosts : list val) (r : route) (ys : list yaml) : option (option route) :=
  match ys with
  | [] => Some (Some r)
  | y :: t => bind (tls_match ns hosts r y) (fun o => match o with Some r' => tls_matches ns hosts r' t | None => Some None end)
  end.
Definition tls_route (ns : string) (hosts : list val) (y : yaml) : option (option route) :=
  bind (check_fields y [Field "match" Optional None None; Field "route" Optional None None]) (fun m =>
  bind (items_of (yget m "match")) (fun ys =>
  match ys with
  | [] => Some None
  | _ => bind (tls_matches ns hosts route0 ys) (fun o =>
         match o with Some r => option_map Some (route_destinations ns false m r) | None => Some None end)
  end)).
(** One turn of the loop of parse_vs_tcp_route, IstioVirtualServiceYamlParser.py:143-149. *)
Definition tcp_route (ns : string) (y : yaml) : option route :=
  bind (check_fields y [Field "match" Optional None None; Field "route" Optional None None]) (fun m =>
  bind (items_of (yget m "match")) (fun ys =>
  bind (fold_left (fun acc y => bind acc (fun r => l4_match ns r y)) ys (Some route0)) (fun r =>
  route_destinations ns false m r))).
(** The loop over the hosts, IstioVirtualServiceYamlParser.py:60-64. *)
Definition vs_hosts_of (l : list yaml) : option (list val) :=
  bind (mapM gw_host l) (fun os => Some (flat_map (fun o => match o with Some v => if vbool O v then [v] else [] | None => [] end) os)).
(** parse_virtual_service, IstioVirtualServiceYamlParser.py:36-72; [l] is self.virtual_services.  Simplification: a namespace that is null is rejected. *)
Definition parse_virtual_service (l : list vservice) (y : yaml) : option (list vservice) :=
  bind (parse_generic y ["VirtualService"] istio_networking ["istio"] false false true) (fun o =>
  match o with
  | None => Some l
  | Some (m, name, YStr t) =>
    let ns := ns_name t in
    bind (check_fields (yget m "spec") [Field "hosts" Optional (Some TyList) None; Field "gateways" Optional (Some TyList) None; Field "http" Optional None None;
                                        Field "tls" Optional None None; Field "tcp" Optional None None; Field "exportTo" Ignored (Some TyList) None]) (fun sp =>
    bind (vs_hosts_of (ylist (yget sp "hosts"))) (fun hosts =>
    bind (vs_gateway_names ns sp true []) (fun gws =>
    bind (bind (items_of (yget sp "http")) (mapM (http_route ns))) (fun http =>
    bind (bind (items_of (yget sp "tls")) (mapM (tls_route ns hosts))) (fun tls =>
    bind (bind (items_of (yget sp "tcp")) (mapM (tcp_route ns))) (fun tcp =>
    Some (put_named vs_name (VS (slash_name ns name) ns hosts gws http (flat_map (fun o => match o with Some r => [r] | None => [] end) tls) tcp) l)))))))
  | Some _ => None
  end).
End Parse.

(** ** The policies *)
Section Generate.
Context (dom : dim -> val) (reg : list peer) (cl : cluster).
Notation C := (hc val).
Let O := val_ops dom.
Let mk := conns_of dom reg (cl_ports cl).
Context (gs : list gateway).

(** pick_vs_gateways_by_hosts, IstioGatewayPolicyGenerator.py:117-146: gateways with their matching hosts; a gateway that is named again keeps
    its place in the dictionary. *)
Definition pick_step (h : val) (acc : option (list (gateway * val))) (name : string) : option (list (gateway * val)) :=
  bind acc (fun l =>
  if String.eqb name "mesh" then Some l
  else match find (fun g => String.eqb (gw_name g) name) gs with
  | None => Some l
  | Some g => bind (gw_hosts g) (fun u =>
              if vbool O (vand O u h) && negb (existsb (fun e => String.eqb (gw_name (fst e)) (gw_name g)) l) then Some (l ++ [(g, vand O u h)]) else Some l)
  end).
Definition pick_gateways (vs : vservice) (names : list string) : option (list (gateway * val)) :=
  bind (all_hosts dom (vs_hosts vs)) (fun h => fold_left (pick_step h) names (Some [])).

(** init_route_conn_cube and create_allow_rule, IstioGatewayPolicyGenerator.py:148-162, 203-219. *)
Definition keep_word (o : option val) : option val := match o with Some v => if vbool O v then Some v else None | None => None end.
Definition keep_methods (o : option iset) : option iset := match o with Some (_ :: _) => o | _ => None end.
Definition route_conns (src : peerset) (d : dest) (r : route) (hosts : option val) : C :=
  mk (CDict (Some src) (Some (ds_pods d)) (Some tcp_set) None (Some (ds_ports d)) (keep_methods (rt_methods r)) hosts (keep_word (rt_uri r)) None None).
(** create_deny_rule, IstioGatewayPolicyGenerator.py:221-229. *)
Definition deny_conns (src dst : peerset) : C := mk (CDict (Some src) (Some dst) None None None None None None None None).

(** The lists of the generator, IstioGatewayPolicyGenerator.py:32-35. *)
Record flows := Flows { fl_ingress : list (policy (C:=C)); fl_mesh : list (policy (C:=C)); fl_egress : list (policy (C:=C)); fl_deny : list (policy (C:=C)) }.
Definition no_flows : flows := Flows [] [] [] [].
Definition add_flows (a b : flows) : flows :=
  Flows (fl_ingress a ++ fl_ingress b) (fl_mesh a ++ fl_mesh b) (fl_egress a ++ fl_egress b) (fl_deny a ++ fl_deny b).
Definition origin (vs : vservice) (cnt : Z) (what name : string) : string :=
  ("virtual service " ++ vs_name vs ++ ", route number " ++ str_of_Z cnt ++ ", " ++ what ++ " " ++ name)%string.
Definition gateway_policy (name ns : string) (ing eg : bool) (sel : peerset) (ir er : list (rule (C:=C))) (a : action) : policy (C:=C) :=
  Policy name ns TGatewayPolicy ing eg sel ir er None a.
(** One turn of the loop of create_gtw_to_mesh_and_deny_policies, with init_gtw_to_mesh_policy and init_deny_policy,
    IstioGatewayPolicyGenerator.py:164-201, 247-280; an egress gateway with an internal destination fails in an assertion. *)
Definition gateway_flows (vs : vservice) (cnt : Z) (r : route) (gh : gateway * val) : option flows :=
  let (g, h) := gh in
  let h' := match keep_word (rt_sni r) with Some s => vand O h s | None => h end in
  if match keep_word (rt_sni r) with Some _ => negb (vbool O h') | None => false end then Some no_flows
  else
    let name := origin vs cnt "gateway" (gw_name g) in
    let allow := gateway_policy ("Allow policy for " ++ name)%string (vs_ns vs) false true (gw_peers g) []
                   (map (fun d => Rule Allow (ds_pods d) [] (route_conns (gw_peers g) d r (Some h'))) (rt_dests r)) Allow in
    if gw_egress g then
      if match rt_internal r with Some b => b | None => false end then None
      else bind (ps_diff (all_group cl) (gw_peers g)) (fun others =>
           let deny := gateway_policy ("Deny policy from mesh to DNS entries for " ++ name)%string (vs_ns vs) false true others []
                         (map (fun d => Rule Deny (ds_pods d) [] (deny_conns others (ds_pods d))) (rt_dests r)) Deny in
           Some (Flows [] [] [allow] [deny]))
    else Some (Flows [allow] [] [] []).
(** is_egress_gateway, VirtualService.py:31-32. *)
Definition is_egress_gateway (d : dest) : bool := String.eqb (ds_name d) "istio-egressgateway.istio-system.svc.cluster.local".
(** create_mesh_to_egress_policy, IstioGatewayPolicyGenerator.py:284-302. *)
Definition mesh_policy (vs : vservice) (cnt : Z) (r : route) (d : dest) : policy (C:=C) :=
  gateway_policy ("Allow policy for " ++ origin vs cnt "destination" (ds_name d))%string (vs_ns vs) true false (ds_pods d)
    [Rule Allow (all_group cl) [] (route_conns (all_group cl) d r (keep_word (rt_sni r)))] [] Allow.
(** One turn of the loop of create_route_policies, IstioGatewayPolicyGenerator.py:321-358, with the flag has_gateways. *)
Definition many_gateways (names : list string) : bool :=
  if smem "mesh" names then Nat.ltb 1 (List.length names) else match names with [] => false | _ => true end.
Definition route_flows (vs : vservice) (glob : list (gateway * val)) (has_gws : bool) (cnt : Z) (r : route) : option (flows * bool) :=
  bind (match rt_gateways r with
        | [] => Some (smem "mesh" (vs_gateways vs), has_gws, glob)
        | names => bind (pick_gateways vs names) (fun l => Some (smem "mesh" names, has_gws || many_gateways names, l))
        end) (fun q =>
  let '(mesh, gws, l) := q in
  let mesh' := mesh || negb gws in
  bind (fold_left (fun acc gh => bind acc (fun f => bind (gateway_flows vs cnt r gh) (fun f' => Some (add_flows f f')))) l (Some no_flows)) (fun f =>
  let m := if mesh' && match rt_internal r with Some b => b | None => false end
           then map (mesh_policy vs cnt r) (filter is_egress_gateway (rt_dests r)) else [] in
  Some (add_flows f (Flows [] m [] []), gws))).
(** create_route_policies, IstioGatewayPolicyGenerator.py:304-361: the routes are counted from 1. *)
Fixpoint routes_flows (vs : vservice) (glob : list (gateway * val)) (has_gws : bool) (cnt : Z) (rs : list route) : option flows :=
  match rs with
  | [] => Some no_flows
  | r :: t => bind (route_flows vs glob has_gws cnt r) (fun q => bind (routes_flows vs glob (snd q) (cnt + 1) t) (fun f => Some (add_flows (fst q) f)))
  end.
(** The loop over the virtual services, IstioGatewayPolicyGenerator.py:54-71. *)
Definition vs_flows (vs : vservice) : option flows :=
  bind (pick_gateways vs (vs_gateways vs)) (fun glob =>
  let f rs := routes_flows vs glob (many_gateways (vs_gateways vs)) 1 rs in
  bind (f (vs_http vs)) (fun a => bind (f (vs_tls vs)) (fun b => bind (f (vs_tcp vs)) (fun c => Some (add_flows a (add_flows b c)))))).
Definition all_flows (l : list vservice) : option flows :=
  fold_left (fun acc vs => bind acc (fun f => bind (vs_flows vs) (fun f' => Some (add_flows f f')))) l (Some no_flows).
Definition dummy_policy : policy (C:=C) := gateway_policy "Dummy empty gateway policy" "default" false false [] [] [] Allow.
Definition flow_policies (f : flows) : list (policy (C:=C)) :=
  match fl_ingress f ++ (match fl_mesh f, fl_egress f with _ :: _, _ :: _ => fl_mesh f ++ fl_egress f ++ fl_deny f | _, _ => [] end) with
  | [] => [dummy_policy]
  | l => l
  end.
End Generate.

Section All.
Context (dom : dim -> val) (reg : list peer) (cl : cluster) (ks : list k8s_service) (svcs : list service) (dfa : list ascii -> val).
Context (rematch : list ascii -> list ascii -> bool).
(** create_istio_gateway_policies, IstioGatewayPolicyGenerator.py:37-115; [None] for a parser that has not been created
    (PoliciesFinder.py:100-110, 126-128): without gateways a warning is given to the parser of virtual services, if there is one. *)
Definition gateway_policies (gs : option (list gateway)) (vss : option (list vservice)) : option (list (policy (C:=hc val))) :=
  match gs, vss with
  | Some (g :: gt), Some (v :: vt) => option_map flow_policies (all_flows dom reg cl (g :: gt) (v :: vt))
  | Some (_ :: _), _ => Some []
  | _, Some _ => Some []
  | _, None => None
  end.
(** The queue of PoliciesFinder.parse_policies_in_parse_queue, PoliciesFinder.py:72-110, 126-131: gateways and virtual services. *)
Definition istio_gateways (docs : list yaml) : option (option (list gateway)) :=
  match docs with [] => Some None | _ => option_map Some (fold_left (fun acc y => bind acc (fun gs => parse_gateway dom cl dfa gs y)) docs (Some [])) end.
Definition virtual_services (docs : list yaml) : option (option (list vservice)) :=
  match docs with [] => Some None
  | _ => option_map Some (fold_left (fun acc y => bind acc (fun l => parse_virtual_service dom cl ks svcs dfa rematch l y)) docs (Some [])) end.
Definition istio_gateway_policies (gdocs vdocs : list yaml) : option (list (policy (C:=hc val))) :=
  bind (istio_gateways gdocs) (fun gs => bind (virtual_services vdocs) (fun vss =>
  match gs, vss with None, None => Some [] | _, _ => gateway_policies gs vss end)).
End All.

# Writes /verif/properties.jsonl from the table below (run by hand; the jsonl is the deliverable).
import json
P=[]
def p(i,t,s,q,w,a): P.append(dict(id=i,title=t,statement=s,quantifier=q,why_tests_cant=w,anchors=a))
IS="nca/CoreDS/CanonicalIntervalSet.py"; HC="nca/CoreDS/CanonicalHyperCubeSet.py"; CP="nca/CoreDS/ConnectivityProperties.py"
PE="nca/CoreDS/Peer.py"; NP="nca/Resources/PolicyResources/"; NC="nca/NetworkConfig/"; PA="nca/Parsers/"; FW="nca/FWRules/"
p("C01","Interval-set algebra is exact",
 "For interval sets built through the public operations, a number belongs to A|B iff it belongs to A or B, to A&B iff to both, to A-B iff to A and not B; adding an interval adds exactly its numbers and adding a hole removes exactly its numbers.",
 "all pairs of interval sets over the integers, all intervals [s,e] with s<=e, all numbers",
 "Sets of integers are unbounded; the merge logic has many boundary cases (touching, nested, spanning several intervals) found by binary search, so any finite sample leaves untested alignments.",
 [IS+": __and__, __or__, __sub__, __iand__, __ior__, __isub__, add_interval, add_hole, find_interval_left, find_interval_right"])
p("C02","Interval sets have one representation per set of numbers",
 "Every interval set reachable through the public operations is sorted with gaps of at least one missing number between consecutive intervals, and two such sets compare equal iff they contain the same numbers; the empty test is true iff it has no numbers.",
 "all finite sequences of add/remove/union/intersection/difference operations on intervals with s<=e",
 "Canonicity is an invariant over all operation histories; tests check particular histories only.",
 [IS+": add_interval, add_hole, __eq__, __bool__, get_interval_set"])
p("C03","Interval-set containment, overlap and membership queries are exact",
 "contained_in returns True iff every number of the first set is in the second; overlaps is True iff they share a number; 'n in S' iff n is one of its numbers; the bisection searches always terminate with an in-range index.",
 "all pairs of reachable interval sets, all integers",
 "The containment test consults a single candidate interval chosen by binary search; correctness for every layout needs a proof about the search.",
 [IS+": contained_in, overlaps, __contains__, find_interval_left, find_interval_right"])
p("C04","Printed number/range lists denote the same set",
 "Reading back the list printed for an interval set (single numbers and 'a-b' ranges) yields exactly the numbers of the set, and different sets print differently.",
 "all reachable interval sets of non-negative numbers (ports, protocols, ICMP values)",
 "Round-trip over an infinite domain.",
 [IS+": get_interval_set_list_numbers_and_ranges, __repr__"])
p("C05","Port sets track numeric, named and excluded-named ports exactly",
 "After any sequence of add/remove/union/difference operations on a port set, the numeric part contains exactly the ports last added and not removed since; a named port is included iff its last operation added it and excluded iff its last operation removed it; no name is ever both included and excluded.",
 "all finite histories of add_port, add_port_range, remove_port, |=, -= with numeric and string ports",
 "History property.",
 ["nca/CoreDS/PortSet.py: add_port, remove_port, add_port_range, __ior__, __isub__, is_all, __bool__"])
p("C06","Method and protocol set rendering denotes the set, including the 'all but' form",
 "The string form of a protocol or HTTP-method set ('all but', explicit list, range list) denotes exactly the members of the set; protocol sets respond to add/remove/contains by number exactly.",
 "all subsets of the 256 protocol numbers / of the 9 methods, all histories of add/remove",
 "2^256 sets.",
 ["nca/CoreDS/ProtocolSet.py: add_protocol, remove_protocol, __contains__, __str__", "nca/CoreDS/MethodSet.py: __str__"])
p("C07","Protocol names and numbers are consistently translated",
 "Every supported protocol name maps to a number in 0..255; translating the number back and forward again gives the same number; numbers with no name are rendered as their decimal value.",
 "all names in the table and all numbers 0..255",
 "Exhaustive here; included since parsers and renderers rely on it (two names share one number, so name->number->name is not the identity).",
 ["nca/CoreDS/ProtocolNameResolver.py: get_protocol_name, get_protocol_number, is_standard_protocol"])
p("C08","Union, intersection and difference of cube sets are exact",
 "For multi-dimensional connection sets, a connection (one value per dimension) belongs to A|B, A&B, A-B iff it belongs to A or B, A and B, A and not B.",
 "all pairs of reachable cube sets, any number of dimensions, any active-dimension subsets, all points",
 "The recursive algorithms re-align active dimensions, split layers, merge equal sub-cubes and drop full dimensions; the input space is infinite and interactions between these steps are only exposed by particular shapes and histories.",
 [HC+": __iand__, _and_aux, __ior__, or_aux, __isub__, sub_aux, _prepare_common_active_dimensions, reduce_active_dimensions"])
p("C09","Cube-set containment is exact",
 "contained_in returns True iff every connection of the first set is in the second.",
 "all pairs of reachable cube sets with arbitrary active dimensions",
 "The containment algorithm walks both trees with different active dimensions in four cases; tests cover few shapes.",
 [HC+": contained_in, _contained_in_aux, _is_sub_elem_entire_sub_space, _get_last_dim_cube_value"])
p("C10","Cube sets have one representation per set of connections",
 "Two reachable cube sets compare equal iff they contain the same connections, and a cube set is falsy iff it contains no connection.",
 "all pairs of reachable cube sets; separately for the base class and for ConnectivityProperties, all operation histories",
 "Canonical form is an invariant over all histories; equality is used by queries to decide equivalence and semantic differences.",
 [HC+": __eq__, __bool__, _apply_layer_elements_union, reduce_active_dimensions", CP+": __eq__, copy"])
p("C11","Cube enumeration is an exact disjoint cover",
 "Iterating over a cube set yields finitely many cubes, pairwise disjoint, whose union is exactly the set; the reported length is the number of those cubes.",
 "all reachable cube sets",
 "All tree shapes.",
 [HC+": __iter__, __len__, _get_cubes_list_from_layers, _get_entire_space_cube"])
p("C12","Building from a cube, and adding a cube or a hole, are exact",
 "create_from_cube denotes exactly the cartesian product of the given values; add_cube adds exactly that product and add_hole removes exactly that product; empty dimension values give the empty set and full-domain dimensions are ignored.",
 "all cubes over any dimension subset, all reachable cube sets",
 "All value combinations.",
 [HC+": create_from_cube, _reduce_cube, _create_from_cube_aux, add_cube, add_hole"])
p("C13","Point membership test is exact",
 "'item in S' is True iff the item lies in one of S's cubes.",
 "all items with one value per dimension, all reachable cube sets",
 "All points and shapes.",
 [HC+": __contains__, _get_aligned_cube_by_new_active_dimensions"])
p("C14","Projection on one dimension is exact",
 "project_on_one_dimension(d) contains exactly the values v such that some connection in the set has value v at d.",
 "all reachable non-empty connection sets, every peer/port/protocol/method dimension",
 "All shapes.",
 [CP+": project_on_one_dimension, get_connectivity_cube"])
p("C15","Switching source/destination order preserves the connections",
 "minimize() and reorder_by_switching_src_dst_peers() return a set with exactly the same connections, and minimize never returns more cubes.",
 "all reachable connection sets",
 "All shapes.",
 [CP+": minimize, reorder_by_switching_src_dst_peers, _reorder_by_dim_list"])
p("C16","IP blocks: CIDR minus exceptions, split and complement are exact",
 "An IP block built from a CIDR with exceptions contains exactly the addresses of the CIDR outside the exceptions; splitting yields disjoint contiguous blocks covering it exactly; IPv4 and IPv6 addresses never merge.",
 "all CIDRs and exception lists, both address families",
 "2^32 / 2^128 addresses.",
 [PE+": IpBlock, IPNetworkAddress"])
p("C17","Partitioning referenced IP blocks is a partition refining every block",
 "Adding any blocks one after the other with _add_interval_to_list to an empty list yields blocks that are non-empty, pairwise disjoint, cover exactly the union, and each is either inside or outside every input block.",
 "all finite collections of IP blocks",
 "Unbounded collections and alignments.",
 [PE+": IpBlock._add_interval_to_list"])
p("C18","Peer-set <-> index-interval translation round-trips",
 "Translating a set of registered peers and IP ranges to index intervals and back yields the same peers and addresses; distinct peers get distinct indices, and indices never change once assigned.",
 "all registration histories and all peer sets over registered peers",
 "History property, unbounded peers.",
 [PE+": BasePeerSet.add_peer, get_peer_interval_of, get_peer_set_by_indices"])
p("C19","Label selectors implement Kubernetes set-based semantics",
 "Selecting pods (or namespaces) by key and values with In, NotIn, Exists, DoesNotExist returns exactly the pods whose labels satisfy the requirement, and a selector with several requirements returns the pods satisfying all of them.",
 "all label maps, keys, value lists and selector lists",
 "Unbounded label maps.",
 [NC+"PeerContainer.py: get_peers_with_label, get_namespace_pods_with_label, get_peers_with_key", PA+"K8sPolicyYamlParser.py: parse_label_selector, parse_label_selector_requirement"])
p("C20","Calico rules are evaluated first-match",
 "For a connection, a Calico policy's allow/deny/pass verdict is the action of the first rule in order that matches the connection; a connection matched by no rule is in none of the three sets, and no connection is in two of them.",
 "all rule lists, all connections, both directions",
 "All rule sequences.",
 [NP+"CalicoNetworkPolicy.py: sync_props, _update_opt_props_by_order"])
p("C21","Kubernetes network policies allow the union of their rules",
 "A K8s policy's allowed ingress (egress) connections are exactly the union of its rules' connections, it never denies, and it captures its selected pods exactly in the directions it affects.",
 "all rule lists and connections",
 "All rule lists.",
 [NP+"K8sNetworkPolicy.py: sync_props, allowed_connections"])
p("C22","Policy ordering within a layer",
 "After any sequence of additions, a layer's Calico/K8s policies are sorted by order (unordered last); in an Istio layer all Deny authorization policies precede all Allow ones.",
 "all insertion sequences",
 "History property over a comparison that is not a strict weak order.",
 [NC+"NetworkLayer.py: add_policy", NP+"NetworkPolicy.py: __lt__", NP+"IstioNetworkPolicy.py: __lt__"])
p("C23","Within a layer the first decisive policy wins",
 "Combining the policies of a layer in order, a connection ends up allowed/denied/passed according to the first policy (in layer order) that gives it a verdict, and in none if no policy does; the three result sets are disjoint.",
 "all policy lists with arbitrary (disjoint per policy) verdict sets, all connections",
 "All lists.",
 [NC+"NetworkLayer.py: collect_policies_conns_optimized"])
p("C24","Kubernetes/Calico layer default semantics",
 "In the K8s/Calico layer, a connection into (out of) a pod not selected by any policy of that direction is allowed; into a selected pod it is allowed iff the first deciding policy allows it or passes it to the profile; a connection is allowed overall iff both its ingress and its egress sides allow it.",
 "all peers, policies, connections",
 "All policy sets.",
 [NC+"NetworkLayer.py: K8sCalicoNetworkLayer._allowed_xgress_conns, NetworkLayer.allowed_connections"])
p("C25","Istio layer semantics: deny first, then allow, default allow without Allow policies",
 "For TCP traffic into a workload: denied if any Deny policy matches; otherwise allowed if no Allow policy selects the workload or some Allow policy matches; non-TCP traffic is not restricted by the Istio layer.",
 "all Istio policy sets, all connections",
 "All policy sets.",
 [NC+"NetworkLayer.py: IstioNetworkLayer._allowed_xgress_conns", NP+"IstioNetworkPolicy.py"])
p("C26","A configuration allows a connection iff every active layer allows it",
 "The allowed connections of a configuration are the intersection of the layers' allowed connections; explicitly allowed connections are a subset of all allowed connections; host endpoints are governed only by the Calico layer in the captured/allowed/denied sets.",
 "all configurations, all connections",
 "All configurations.",
 [NC+"NetworkConfig.py: allowed_connections"])
p("C27","Policy container invariants",
 "After any sequence of policy additions, policies are keyed uniquely by (full name, kind); adding a duplicate or unknown kind is rejected and changes nothing; each policy sits in exactly one layer, the one for its kind; the default K8s/Calico layer is present exactly when no other layer was created or some policy was added to it.",
 "all addition sequences",
 "History property.",
 [NC+"NetworkConfig.py: PoliciesContainer.append_policy", NC+"NetworkLayer.py: NetworkLayersContainer.add_policy"])
p("C28","Never-possible connections are filtered exactly",
 "Filtering by peer types removes exactly the IP-to-IP, IP-to-DNS and DNS-to-anything connections and nothing else.",
 "all connection sets",
 "All sets.",
 [NC+"NetworkConfig.py: filter_conns_by_peer_types"])
p("C29","Equivalence query is sound and complete",
 "The equivalence query answers 'equivalent' iff the two configurations allow the same relevant connections between their common peers.",
 "all pairs of configurations over the same topology",
 "All configurations.",
 [NC+"NetworkConfigQuery.py: EquivalenceQuery"])
p("C30","Containment and two-way containment queries are sound and complete",
 "Containment answers yes iff every relevant connection allowed by the first is allowed by the second; two-way containment reports the relation determined by both directions.",
 "all pairs of configurations",
 "All configurations.",
 [NC+"NetworkConfigQuery.py: ContainmentQuery, TwoWayContainmentQuery"])
p("C31","Permits, forbids, interferes and intersects answer their definitions",
 "Permits: every connection explicitly allowed by the first is allowed by the second. Forbids: none of them is. Interferes: the first explicitly allows some connection the second does not explicitly allow. Intersects: some connection explicitly allowed by the first is allowed by the second.",
 "all pairs of configurations",
 "All configurations.",
 [NC+"NetworkConfigQuery.py: PermitsQuery, ForbidsQuery, InterferesQuery, IntersectsQuery"])
p("C32","Semantic difference is an exact partition",
 "The semantic-diff query reports exactly the connections allowed by only one of the two configurations, split into disjoint categories of lost/new/added/removed connections.",
 "all pairs of configurations",
 "All configurations.",
 [NC+"NetworkConfigQuery.py: SemanticDiffQuery"])
p("C33","Redundancy findings are sound",
 "A policy (rule) reported redundant can be removed without changing the allowed connections of its layer, and all redundant policies of all layers are reported.",
 "all configurations",
 "All configurations; the result aggregates across layers.",
 [NC+"NetworkConfigQuery.py: RedundancyQuery"])
p("C34","Emptiness, vacuity, disjointness and all-captured answer their definitions",
 "Vacuity iff the config allows the same as with no policies; disjointness reports exactly the pairs of policies selecting a common pod; emptiness reports exactly policies selecting no pods and rules selecting no peers; all-captured iff every relevant pod is selected in both directions.",
 "all configurations",
 "All configurations.",
 [NC+"NetworkConfigQuery.py: VacuityQuery, DisjointnessQuery, EmptinessQuery, AllCapturedQuery"])
p("C35","Exit codes encode what happened",
 "The CLI return value determines uniquely whether a query was not executed, whether an output comparison failed, and the query's numeric result; scheme runs accumulate results over queries.",
 "all result combinations",
 "Arithmetic encodings over unbounded numeric results.",
 ["nca/nca_cli.py: _compute_return_value", "nca/SchemeRunner.py: run_queries, run_scheme", NC+"NetworkConfigQueryRunner.py: run_query, QueryResult"])
p("C36","Firewall-rule minimization preserves connectivity",
 "The minimized firewall rules, read as sets of pods (by namespaces, label values, names), addresses and DNS entries, together denote the connections they summarise: no connection is lost (if its host and path are non-empty words), and none is invented (but those of a pod or host endpoint to itself); the computation ends.",
 "all connectivity maps, all peer groupings by namespace and label",
 "Grouping heuristics interact over all label assignments.",
 [FW+"MinimizeCsFWRules.py", FW+"MinimizeFWRules.py", FW+"FWRule.py"])
p("C37","Connectivity-graph summarisation preserves edges",
 "Merging edges into cliques and bicliques in the graph output represents exactly the original directed labelled edges.",
 "all finite labelled directed graphs",
 "All graphs.",
 [FW+"ConnectivityGraph.py: _creates_cliqued_graph, _creates_bicliqued_graph, _reformat_graph"])
p("C38","Policy-type flags and K8s port parsing",
 "affects_ingress/affects_egress are computed from policyTypes and rule presence as Kubernetes specifies; a port with endPort yields exactly the range, and illegal ranges are rejected.",
 "all policyTypes lists, all presence combinations, all port values",
 "Combinatorial and unbounded.",
 [PA+"K8sPolicyYamlParser.py: parse_policy, parse_port"])
p("C39","Calico protocol / notProtocol / ICMP matching",
 "A Calico rule's connections are those whose protocol equals 'protocol' (if given), differs from 'notProtocol' (if given), and whose ICMP type/code match 'icmp' and do not match 'notICMP'.",
 "all field combinations and values",
 "Combinatorial; zero values are special.",
 [PA+"CalicoPolicyYamlParser.py: _parse_protocol, _parse_icmp, _parse_xgress_rule"])
p("C40","Istio value matching",
 "Exact, prefix ('abc*'), suffix ('*abc') and presence ('*') values match exactly the strings Istio documents.",
 "all pattern and candidate strings",
 "Unbounded strings.",
 [PA+"IstioPolicyYamlParser.py: _get_peers_by_principals / value matching helpers, parse_regex_string"])
p("C41","Each peer is governed by at most one sidecar",
 "After resolving sidecar priorities (selector over namespace default over global default), the selected peer sets of the resulting sidecars are pairwise disjoint, and each peer keeps the highest-priority sidecar selecting it.",
 "all sidecar lists and parse orders",
 "All orders.",
 [PA+"IstioSidecarYamlParser.py: get_istio_sidecars"])
p("C42","Ingress path matching is disjoint and longest-prefix",
 "For one host, each request path is routed to exactly the backend of the most specific matching path (exact over prefix, longer over shorter).",
 "all path lists and request paths",
 "Unbounded strings.",
 [PA+"IngressPolicyYamlParser.py: segregate_longest_paths_and_make_dfa"])
p("C43","At most two equivalent replicas per workload are kept",
 "When loading pods, at most two pods with the same owner and equal labels/ports are registered, and the first ones are kept; pods without owner are always registered.",
 "all pod loading sequences",
 "History property.",
 [NC+"TopologyObjectsFinder.py: _add_peer"])
CD0="nca/CoreDS/"
p("C44","Connectivity properties of a cube are exactly the cube",
 "Making connectivity properties from a connectivity cube yields exactly the connections whose every coordinate lies in the cube's value for that dimension; the result is empty iff some value is empty, and everything iff all values are full.",
 "all dimension lists, domains, cubes",
 "Unbounded value sets and combinations of full/empty/partial dimensions.",
 [CD0+"ConnectivityProperties.py: _make_conn_props_no_named_ports_resolution", CD0+"ConnectivityCube.py: is_empty, get_ordered_cube_and_active_dims"])
p("C45","Named ports are resolved per destination peer",
 "The properties made from a cube with named and excluded named destination ports contain exactly the numeric-port connections plus, for each destination peer, the ports the names stand for at that peer, minus the ports of the excluded names.",
 "all cubes, peers, name tables, included and excluded names",
 "Combinations of names, peers and protocols.",
 [CD0+"ConnectivityProperties.py: make_conn_props, _resolve_named_ports"])
p("C46","Self-connections are recognised and removed exactly",
 "are_auto_conns answers yes iff every connection has equal source and destination; props_without_auto_conns removes exactly the connections whose two ends lie in one peer.",
 "all connectivity properties and peer tables",
 "Unbounded sets.",
 [CD0+"ConnectivityProperties.py: are_auto_conns, get_auto_conns_from_peers, props_without_auto_conns"])
p("C47","Peer-set operations are exact on peers and addresses",
 "Union, intersection, difference, equality, canonical form, splitting and masking of peer sets agree with the set of named peers and IP addresses they stand for, however the addresses are distributed over IP blocks; membership of a block is answered exactly when it lies inside one block of the set.",
 "all peer sets over pods, host endpoints, DNS entries and IP blocks of both families",
 "2^128 addresses, unbounded sets of overlapping blocks.",
 [PE+": PeerSet.__contains__, __eq__, __iand__, __ior__, __isub__, canonical_form, split, filter_ip_blocks_by_mask"])
p("C48","A parsed NetworkPolicy means what the document says",
 "The policy object built from a Kubernetes NetworkPolicy document selects, per direction, exactly the pods of its namespace that satisfy the pod selector (if the document is about that direction), and for those pods its rules match exactly the connections some rule entry of the document matches: other side by pod/namespace selectors or ipBlock minus exceptions, protocol and port, port range or port name at the destination.",
 "all clusters, all decoded documents the parser accepts, all connections",
 "Documents, label sets, address ranges and clusters are unbounded and combine freely.",
 [PA+"K8sPolicyYamlParser.py: parse_policy, parse_ingress_egress_rule, parse_peer, parse_ip_block, parse_port, parse_label_selector"])
p("C49","From NetworkPolicy documents to allowed connections",
 "For a configuration of Kubernetes NetworkPolicy documents, the reported allowed connections are exactly those where each end is an IP address, or a pod to which no document applies in that direction, or a pod to which some document applies that matches the connection; the order of the documents does not matter.",
 "all clusters, all lists of documents, all connections",
 "End-to-end composition of parser, rules, policies and layer; unbounded inputs.",
 [PA+"K8sPolicyYamlParser.py: parse_policy", NC+"NetworkLayer.py: K8sCalicoNetworkLayer", NC+"NetworkConfig.py: allowed_connections"])
p("C50","Calico selectors select what they say",
 "Every text of the Calico selector grammar (label comparisons, in/not in, has, contains, starts/ends with, all, global; !, && and || with the usual precedence; brackets; any white space) is accepted, and selects exactly the endpoints (for a namespace selector: the pods of exactly the namespaces) whose labels satisfy the expression.",
 "all selector texts of the grammar, all clusters and label sets",
 "Selector texts are unbounded; nesting, brackets, white space and precedence combine freely.",
 [PA+"CalicoPolicyYamlParser.py: _parse_selector_expr, _strip_selector, _split_selector, _parse_selector, _parse_label_selector"])
p("C51","A parsed Calico policy means what the document says",
 "The policy object built from a Calico NetworkPolicy, GlobalNetworkPolicy or Profile document selects, per direction, exactly the endpoints its namespace, selector and namespaceSelector (or first profile) name; has the document's order and the directions of its types (or, without types, of its rules); and for a selected endpoint its first matching rule is the document's first rule entry, other than Log entries, whose protocol, ICMP, source and destination conditions the connection satisfies.",
 "all clusters, all decoded documents the parser accepts, all connections",
 "Documents, selectors, label sets, address ranges, ports and clusters are unbounded and combine freely.",
 [PA+"CalicoPolicyYamlParser.py: parse_policy, _parse_rule, _parse_entity_rule, _parse_ports, _parse_protocol, _parse_icmp, _get_value_as_str_list"])
p("C52","From mixed Kubernetes and Calico documents to allowed connections",
 "For a configuration of Kubernetes and Calico policy documents added in any order, the reported allowed connections are exactly those where each end is an IP address, or an endpoint no document applies to in that direction, or an endpoint for which the first of the applicable documents in policy order with a verdict allows the connection (Kubernetes documents together deny what none of them allows).",
 "all clusters, all lists of documents, all orders of addition, all connections",
 "End-to-end composition of two parsers, ordering, rules, policies and layer; unbounded inputs.",
 [PA+"CalicoPolicyYamlParser.py: parse_policy", PA+"K8sPolicyYamlParser.py: parse_policy", NC+"PoliciesContainer.py: append_policy", NC+"NetworkLayer.py: K8sCalicoNetworkLayer", NC+"NetworkConfig.py: allowed_connections"])
p("C53","An AuthorizationPolicy document selects and matches what it says",
 "A policy read from an Istio AuthorizationPolicy document selects exactly the pods of the document's namespace (all namespaces for the root namespace) with the labels of its selector; it has the document's action; and it allows (or denies) exactly the connections to those pods that some rule entry matches: some source (namespaces, principals, IP blocks), some operation (ports, methods, hosts, paths) and all conditions hold, each list with its negative list, by exact, prefix, suffix or presence match.",
 "all clusters, all decoded documents outside the recorded findings, all connections",
 "Unbounded lists of rules, sources, operations and patterns; tests fix a handful of documents.",
 [PA+"IstioPolicyYamlParser.py: parse_policy, parse_ingress_rule, parse_source, parse_operation, parse_condition", PA+"IstioGenericYamlParser.py: update_policy_peers, _parse_workload_selector"])
p("C54","From Kubernetes, Calico and Istio documents to allowed connections",
 "For a configuration of Kubernetes, Calico and Istio policy documents added in any order (Sidecars last), the reported allowed connections between endpoints are exactly those the Kubernetes and Calico documents allow at both ends (C52) and that are not TCP, or into a pod that no DENY document matches and that some ALLOW document matches or none applies to, and out of a pod no Sidecar restricts or some Sidecar allows.",
 "all clusters, all lists of documents, all orders of addition, all connections with an endpoint in the cluster",
 "End-to-end composition of three parsers, two layers and the configuration; unbounded inputs.",
 [PA+"IstioPolicyYamlParser.py: parse_policy", NC+"NetworkLayer.py: IstioNetworkLayer", NC+"NetworkConfig.py: allowed_connections", NC+"PoliciesContainer.py: append_policy"])
p("C55","Sidecar documents restrict what they say",
 "With the services and Sidecar documents of a configuration, a pod is restricted on the way out exactly if the Sidecar that applies to it (highest priority of those selecting it) has egress entries; it then reaches by TCP exactly the pods of services named by a host of an entry, the external names matched by a host, and, unless the outbound traffic policy is REGISTRY_ONLY, all IP addresses.",
 "all clusters, services, lists of Sidecar documents outside the recorded findings, all connections",
 "Host patterns, service sets, namespaces and overlapping Sidecars combine freely.",
 [PA+"IstioSidecarYamlParser.py: parse_policy, _parse_egress_rule, _validate_and_partition_host_format, _get_peers_from_host_dns_name, get_istio_sidecars", "nca/Resources/PolicyResources/IstioSidecar.py: allowed_connections, create_opt_egress_props"])
p("C56","From all documents, with Sidecars and services, to allowed connections",
 "For a configuration of Kubernetes, Calico, AuthorizationPolicy, Service and Sidecar documents, the reported allowed connections are exactly those the Kubernetes/Calico documents allow at both ends and the Istio documents allow (or that are not TCP); the same for TCP connections to external names.",
 "all clusters, all lists of documents outside the recorded findings, all connections",
 "End-to-end composition of five parsers, two layers and the configuration; unbounded inputs.",
 [PA+"IstioSidecarYamlParser.py: parse_policy, get_istio_sidecars", NC+"NetworkLayer.py: IstioNetworkLayer", NC+"NetworkConfig.py: allowed_connections"])
p("C57","Services stand for their target pods",
 "A Service document is turned into exactly the pods of its namespace that have all labels of its (nonempty) selector and define its named target ports with their protocols; of several services with the same name and namespace the last one counts.",
 "all clusters, all lists of Service documents",
 "Label sets, ports and lists of services are unbounded.",
 [PA+"K8sServiceYamlParser.py: parse_service", NC+"PeerContainer.py: add_services_from_list, _add_service_target_pods"])
p("C58","The loaded cluster is what the topology documents describe",
 "After loading topology documents (Namespaces, Pods, workload resources, host endpoints, ServiceEntries, lists of these), every registered endpoint is one that some object of the documents declares, with the object's name, labels, named ports, service account and owner; pods are in the namespace the object names, whose labels are those of the last Namespace object of that name; names are unique; named ports have the numbers of the documents.",
 "all lists of decoded documents that load, also with namespaces and pods given separately",
 "Unbounded nested lists of documents; order of documents and repeated objects matter.",
 [NC+"TopologyObjectsFinder.py: PodsFinder, NamespacesFinder, ServicesFinder", NC+"ResourcesHandler.py: parse_elements", NC+"PeerContainer.py: _set_pod_list", PA+"IstioServiceEntryYamlParser.py: parse_serviceentry"])
p("C59","From topology and policy documents to allowed connections",
 "For topology documents that load and policy documents of all kinds, the reported allowed connections are exactly those that the policy documents allow, read with the pods, labels, namespaces, named ports, service accounts and services that the topology documents declare.",
 "all lists of topology documents and of policy documents outside the recorded findings, all connections",
 "End-to-end composition of all parsers, the topology, two layers and the configuration; unbounded inputs.",
 [NC+"TopologyObjectsFinder.py: PodsFinder", NC+"PeerContainer.py", NC+"NetworkConfig.py: allowed_connections", NC+"PoliciesContainer.py: append_policy"])
p("C60","An Ingress document routes what Kubernetes routes by it",
 "A policy read from an Ingress document selects exactly the pods of the ingress controller's services, and allows from them exactly the TCP connections to a pod and port of a backend whose host and path the document routes to this backend: by the rule for the host, the most specific path that covers the request (whole path elements, Exact before Prefix), the default backend for what no path and no rule covers. If no two rules are for the same host, this is the routing Kubernetes defines.",
 "all clusters, services, decoded documents outside the recorded findings, all hosts and paths over the alphabet, all connections",
 "Hosts, paths, backends and default backends combine freely; hosts and paths are infinite sets of words.",
 [PA+"IngressPolicyYamlParser.py: parse_policy, parse_rule, parse_ingress_path, parse_backend, segregate_longest_paths_and_make_dfa, _make_default_connections", PA+"GenericGatewayYamlParser.py: parse_regex_host_value, _make_allow_rules, get_path_prefix_dfa"])
p("C61","What the gateway layer adds to a configuration",
 "For a configuration with Ingress documents, the gateway layer lets an endpoint that is not the ingress controller connect to everything, and the controller to exactly the backends to which some Ingress document routes a request; the configuration's allowed connections are those that this layer and all other layers allow.",
 "all clusters, services, lists of Ingress documents outside the recorded findings, all lists of other layers, all connections",
 "End-to-end composition of parser, services, layer and configuration; unbounded inputs.",
 [PA+"IngressPolicyYamlParser.py: parse_policy", NC+"NetworkLayer.py: K8sGatewayLayer (K8sCalicoNetworkLayer)", NC+"NetworkConfig.py: allowed_connections"])
p("C62","Label expressions of firewall rules describe the pods of the rules",
 "The text printed for a rule element made from the values of a label is a label expression, read by a grammar stated independently of the printer, that exactly the pods of the element satisfy among the pods of the namespace; for a key that joins several labels, at least the pods of the element and at most those having, label by label, a value that some pod of the element has.",
 "all clusters whose labels are Kubernetes labels, all allowed labels and combinations of labels, all sets of values, all namespaces, all computed rules",
 "Which of the five forms is printed (=, !=, in, not in, has) depends on the values of the other pods of the namespace; unbounded values, keys and pods.",
 [FW+"FWRule.py: LabelExpr", FW+"MinimizeCsFWRules.py: _create_fw_elements_by_pods_grouping_by_labels", FW+"ClusterInfo.py: get_map_of_simple_keys_to_all_values"])
p("C63","The connectivity map shows the allowed connections of the chosen endpoints",
 "The firewall rules reported as the connectivity map of a configuration, read with the title (TCP, non-TCP, all) they are printed under, stand for exactly the connections that the configuration allows, that are not between two ends outside of the cluster (nor of IPv6 addresses nobody mentions), and one end of which is chosen by the subset options (namespaces, deployments, labels); apart from connections of an endpoint to itself and connections with an empty host or path.",
 "all configurations with exactly evaluated layers, all subsets, all clusters with plain labels, all connections",
 "Composition of layers, subset, split by TCP and minimization; unbounded peers, policies and rules.",
 [NC+"NetworkConfigQuery.py: ConnectivityMapQuery (is_in_subset, compute_subset, are_labels_all_included, compute_connectivity_output, get_props_output_full, get_props_output_split_by_tcp, fw_rules_from_props, convert_props_to_split_by_tcp)", FW+"MinimizeFWRules.py"])
p("C64","The texts of connections say exactly which connections are meant",
 "The text printed for a set of connections (\"All connections\", \"No connections\", a list of cubes {dimension:values,...}, or \"All but\" such a list), read by a reader that does not know the printer, describes exactly the connections of the set, with and without the choice of the shorter of set and complement; so different sets have different texts.",
 "all sets of connections over the dimensions of the tool, all connections, both settings of the complement simplification; texts of peers, hosts and paths are readable by themselves and have no ':', '{', '}'",
 "Values of dimensions contain commas as the list of dimensions does, and protocols are printed by names or 'all but' names; whether the text is unambiguous depends on all combinations.",
 ["nca/CoreDS/ConnectivityProperties.py: get_cube_dict, get_simplified_connections_representation, _get_connections_representation, _get_cube_str_representation", "nca/CoreDS/ProtocolSet.py: __str__", "nca/CoreDS/MethodSet.py: __str__", "nca/CoreDS/CanonicalIntervalSet.py: get_interval_set_list_numbers_and_ranges"])
p("C65","The list of connections without firewall rules says exactly the connections",
 "The text of the connectivity map in the format without firewall rules (lines \"source => destination : connections\" in sections for TCP and non-TCP connections), read by a reader that does not know the printer, says only connections that the configuration allows and the subset options choose, and says every such connection (with a non-empty host and path) that is not from an endpoint to itself. With names of deployments it does not determine the connections.",
 "all configurations with exactly evaluated layers, all subsets, all clusters with plain labels, all connections; names of peers are words that do not read as addresses",
 "The lines are made from a dictionary of connection sets to pairs of peers, with peers projected out of cubes, peers and ranges enumerated and lines sorted and deduplicated.",
 [FW+"ConnectivityGraph.py: add_edges_from_cube_dict, add_props_to_graph, _get_peer_details, get_connections_without_fw_rules_txt_format", NC+"NetworkConfigQuery.py: get_props_output_full, get_props_output_split_by_tcp, txt_no_fw_rules_format_from_props", "nca/CoreDS/ConnectivityProperties.py: extract_src_dst_peers_from_cube"])
p("C66","The texts of IP blocks denote exactly their addresses",
 "The text of an IP block as ranges, as networks (CIDR) or as the shorter of the two, read by a reader of addresses, ranges and networks that does not know the printer, denotes exactly the addresses of the block; so blocks with the same text are equal, and the splitting of a range into networks always ends with aligned networks that cover exactly the range.",
 "all canonical sets of IPv4 and IPv6 addresses, all addresses, both settings of range_only",
 "2^128 addresses; the compression of zero groups and the greedy splitting have many boundary cases.",
 ["nca/CoreDS/Peer.py: IpBlock.get_cidr_list, get_cidr_list_str, get_ip_range_or_cidr_str, full_name", "nca/CoreDS/CanonicalIntervalSet.py: __repr__"])
p("C67","The policies made of Istio Gateways and VirtualServices say what the gateways route",
 "From parsed gateways and virtual services the generator makes policies, Allow before Deny, that let a pod of a gateway connect by TCP exactly to the destinations, ports, paths and methods to which a route bound to the gateway sends a request for a host of both; that deny the other pods of the mesh the external destinations of an egress gateway; and that let into the egress gateway exactly what a route from the mesh sends there. The parts about egress gateways are made only if both halves of the way exist. The policies are put into the container exactly if their names differ.",
 "all clusters, all lists of gateways and virtual services with lawful sets of hosts, paths and ports, all connections",
 "Gateways are chosen per virtual service or per route by names and by intersections of host sets (infinite sets of words); unbounded routes and destinations.",
 [PA+"IstioGatewayPolicyGenerator.py: create_istio_gateway_policies, pick_vs_gateways_by_hosts, create_route_policies, create_gtw_to_mesh_and_deny_policies, create_mesh_to_egress_policy", "nca/Resources/OtherResources/VirtualService.py", "nca/Resources/OtherResources/Gateway.py", NC+"PoliciesFinder.py"])
p("C68","What the Istio gateway layer allows",
 "In the layer of these policies a pod may connect by TCP to where a route of its gateway leads if it is a pod of a gateway, and otherwise to everything but the external destinations of an egress gateway; and the pods of the egress gateway behind a route of the mesh are reached exactly as the routes say, never from addresses. Nobody but the gateway's pods reaches the gateway's external destinations.",
 "all clusters, all parsed gateways and virtual services with distinct names of gateways, all connections",
 "Composition of the generated policies with the order of the layer, captures and defaults; unbounded policies and peers.",
 [NC+"NetworkLayer.py: IstioGatewayLayer, IstioNetworkLayer", PA+"IstioGatewayPolicyGenerator.py", "nca/Resources/PolicyResources/GatewayPolicy.py"])
p("C69","What the documents of Istio Gateways and VirtualServices say is what their policies allow",
 "For documents outside the listed findings and words read in one way: the egress rules of the generated policies allow a connection exactly if a Gateway document selects its source, some VirtualService document bound to that gateway (by its own list or by the list of a match) has hosts in common with it that take the request's host, and a route of it takes the path and the method and names a destination (service and port, or DNS entry) at which the connection arrives; the ingress rules allow exactly what routes of the mesh send to the egress gateway. Of documents with the same name the last counts. Without egress gateways the layer allows the workloads of an ingress gateway exactly what the documents say.",
 "all clusters, all lists of documents, all connections, all hosts and paths",
 "Documents, matches, hosts and routes are unbounded and are united in several nested loops; tests have a few documents. Hosts and paths are words.",
 [PA+"IstioGatewayYamlParser.py", PA+"IstioVirtualServiceYamlParser.py", PA+"IstioGatewayPolicyGenerator.py", PA+"GenericGatewayYamlParser.py: parse_host_value", "nca/Resources/OtherResources/VirtualService.py", "nca/Resources/OtherResources/Gateway.py"])
p("C70","The sanity query reports exactly the issues of a configuration",
 "The report lists, each once: that the configuration is vacuous; the policies that select nothing; the empty sides of the rules of the others; and if the configuration is not vacuous, the policies with the name of a redundant policy of their layer and the redundant, non-empty rules of the others; nothing else. The query passes exactly if there are policies, no two Calico policies are at odds, the configuration is not vacuous, and every policy outside the gateway layers selects a peer, has no empty rule, matters, and has only rules that matter. It ends without an exception if full names are unique and Kubernetes and Calico policies are not mixed; with either condition dropped this is false.",
 "all configurations, all policies of all kinds, all rules",
 "Layers, policies and rules are unbounded; each issue depends on comparisons of all connections of two configurations.",
 [NC+"NetworkConfigQuery.py: SanityQuery", NC+"NetworkConfigQuery.py: RedundancyQuery, EmptinessQuery, VacuityQuery"])
p("C71","What the sanity query says about redundant policies and rules is true",
 "A policy said not to change default connectivity does not, on its own; one said to have no effective rules has no allowing and no denying rule with peers; one said to be contained in another: the other one is another policy of the layer, all the selected peers are selected by it and all it allows explicitly on its own is allowed with the other one alone, and everything it denies the other one denies (if it allows, or denies, at all). A rule said to be contained in a rule: each of its connections is one of that rule, which is another rule (an earlier one in the same Calico policy), and the remark about actions is right for Calico and Istio policies. A rule reported without explanation is contained in no rule of the policies up to where the search stops.",
 "all configurations, all policies, rules and connections",
 "Containment is about all connections; the search runs through all policies and rules.",
 [NC+"NetworkConfigQuery.py: redundant_policy_text, redundant_rule_text, other_policy_containing_allow, other_policy_containing_deny, other_rule_containing", "nca/Resources/PolicyResources/*: rule_containing, has_allow_rules, has_deny_rules"])
p("C72","Conflicting Calico policies are reported; without conflicts the order of loading does not matter",
 "The query reports a conflict exactly if two different Calico policies have the same order, a selected peer in common, and one has an effective Allow rule and the other an effective Deny rule in a direction both affect; the pair reported is such a pair, the later one first. If there is no such pair, no Pass rule, and no Calico policy has the order of the Kubernetes policies, then loading the policies in any other order gives a Kubernetes/Calico layer that allows the same connections.",
 "all configurations, all orders of loading, all connections",
 "All pairs of policies, all permutations of the policies and all connections are meant.",
 [NC+"NetworkConfigQuery.py: has_conflicting_policies_with_same_order", "nca/Resources/PolicyResources/CalicoNetworkPolicy.py: is_conflicting", NC+"NetworkLayer.py", NC+"NetworkConfig.py: PoliciesContainer"])
p("C73","The automata of hosts and paths compute with sets of words, whatever was computed before",
 "After every history of calls for one dimension (hosts or paths): union, intersection and difference of automata stand for the union, intersection and difference of their sets of words within the dimension, although results come from caches keyed by structural equality, complements are remembered in the operands, and flags ('all words', 'not all words') are carried along instead of being recomputed; no call changes what an existing automaton stands for. If the expressions describe words of the dimension, containment, emptiness, finiteness, being the whole dimension and the example word are answered rightly. With two dimensions in one history, or values outside of the dimension, this is false.",
 "all histories of calls of any length, all expressions, all words; all lawful libraries of automata",
 "Each call changes the caches and remembered complements that later calls use, so the result of a call depends on the whole history; sets of words are infinite.",
 ["nca/CoreDS/MinDFA.py", "nca/CoreDS/DimensionsManager.py: _get_dfa_path_domain, __init__"])
p("C74","The texts of hosts and paths say which words are meant",
 "The text of an automaton in the output lists its words if they are finitely many, is a star for the whole dimension, lists after 'all but' the words that are missing if they are finitely many, and otherwise is an expression, built from the expressions of the inputs, that describes exactly its words. Two automata with the same text, in whatever states of the caches, stand for the same words, but for the empty set and the set of the empty word alone.",
 "all histories of calls, all readable expressions, all automata made",
 "The texts come from a cache keyed by structural equality, so that equal automata share the text of the first; expressions nest without bound.",
 ["nca/CoreDS/MinDFA.py: __str__, _get_strings_set_str, __or__, __and__, __sub__", "nca/CoreDS/DimensionsManager.py: get_dim_values_str"])
p("C75","The explanation of a connection lists exactly the reasons of both sides",
 "If explanations are asked for with the connectivity map, and the map shows a connection from pod a to pod b, then explaining a and b says they are connected and lists, sorted, on the source side exactly the policies selecting a that allow a connection from a to b (or Default-Policy if no policy selecting a allows any egress), and on the destination side exactly the policies selecting b that allow a connection from a to b (or Default-Policy if none selecting b allows any ingress); both lists are non-empty. Without Pass rules, and for policies in force in the direction whose rules treat the selected pods alike; otherwise this is false.",
 "all configurations, documents in any number and order, subsets of endpoints, pairs of endpoints",
 "The tracker is filled while documents are parsed, again while layers are evaluated and again after the query; the lists depend on all policies, layers and the whole map.",
 ["nca/Utils/ExplTracker.py", "nca/NetworkConfig/PoliciesFinder.py: parse_policies_in_parse_queue", "nca/NetworkConfig/NetworkLayer.py: _allowed_xgress_conns, add_default_policy calls", "nca/NetworkConfig/NetworkConfigQuery.py: ConnectivityMapQuery.compute_connectivity_output"])
p("C76","The explanation of a lack of connectivity names a policy that causes it",
 "If no subset of endpoints is chosen and the map shows no connection from a to b (no TCP connection, with Istio policies), then explaining a and b says that connectivity is lacking and lists, sorted, all policies selecting a and all policies selecting b and no other name than Default-Policy; and if both are pods, the lists have a policy that is in force on the egress of a or on the ingress of b. With a subset, a lack is reported for connected pods, or the explanation ends in an exception.",
 "all configurations without Pass rules, documents in any number and order, pairs of endpoints",
 "That some policy is responsible needs all layers to be evaluated for all connections between the pods.",
 ["nca/Utils/ExplTracker.py: explain, are_peers_connected, set_connections_and_peers", "nca/NetworkConfig/NetworkConfigQuery.py: ConnectivityMapQuery.compute_connectivity_output"])
p("C77","The explanations of one endpoint and of all pairs are complete",
 "After loading and the connectivity map query: explaining a single pod lists, sorted, exactly the policies selecting it (besides Default-Policy), if no subset of endpoints is chosen; and explaining ALL ends in no exception and has exactly one entry for each ordered pair of names, in order, each the text of that pair and none saying that a name is unknown; the names include both ends of every connection of the map and, without a subset, all endpoints. If output endpoints are deployments this is false: connections within a deployment have no entry.",
 "all configurations without Pass rules, documents in any number and order, subsets of endpoints",
 "The entries depend on all that the tracker was told while loading, evaluating layers and after the query; a missing item of any peer raises an exception for the whole output.",
 ["nca/Utils/ExplTracker.py: explain, explain_all, set_connections_and_peers", "nca/NetworkConfig/NetworkConfigQuery.py: ConnectivityMapQuery.compute_connectivity_output"])
p("C78","The number of an answer counts what its explanation lists, and the lists are right",
 "Emptiness: if titles of policies differ, the numerical result is the number of listed policies and rules, a title is listed iff its policy selects nobody, a number of a rule is listed under a title iff that rule of the policy selects nobody, and the answer is true iff there is such a policy or rule. Disjointness: the numerical result is the number of listed pairs, which are those of the overlaps found, with their names and pods. All captured: the numerical result is the number of listed pods, and the pods listed for a direction are exactly those of the layers not captured in it. If policies of different kinds share a name this is false: rules of one of them are counted but not listed.",
 "all configurations, policies and rules, any order of the sorted policies",
 "The counter and the lists are built separately, the lists in dictionaries keyed by texts; tests compare the outputs of few configurations, none with two policies of one title.",
 ["nca/NetworkConfig/NetworkConfigQuery.py: EmptinessQuery.exec, DisjointnessQuery.exec, AllCapturedQuery", "nca/NetworkConfig/QueryOutputHandler.py"])
p("C79","The texts of explanations determine what they list",
 "With names without commas and ends of lines: two explanations of rules (policies, ingress and egress rules), of overlapping policies, of pods that are not captured, or of connections of one configuration, that have the same description and the same text, have the same policies, rule numbers, pairs, pods, or peers with texts of connections, in the same order.",
 "all lists of names, rule numbers, pods and connections",
 "An ambiguity is a pair of inputs with one text; tests compare single texts with files.",
 ["nca/NetworkConfig/QueryOutputHandler.py: get_explanation_in_str of IntersectPodsExplanation, PoliciesAndRulesExplanations, PodsListsExplanations, ConnectionsDiffExplanation"])
p("C80","The yaml and json outputs of emptiness name the policies and rules; that of redundancy exists iff no policy is listed",
 "If no policy of the layers is an Ingress resource or gateway and names have no white space: the dictionary of an emptiness answer exists, has the numerical result, names exactly the policies selecting nobody, and exactly the numbers of rules selecting nobody. The dictionary of a redundancy answer does not exist (IndexError) exactly if the answer lists a redundant policy, while the text always exists. Dictionaries of missing peers never name a peer, and Ingress resources and gateways are named by a word of their type.",
 "all configurations, names without white space, any query and configuration names",
 "The dictionaries recover names from titles by taking the second word; tests of redundancy in json and yaml have redundant rules but no redundant policy.",
 ["nca/NetworkConfig/QueryOutputHandler.py: get_explanation_in_dict, _get_policy_name_from_title, DictOutputHandler.compute_query_output", "nca/NetworkConfig/NetworkConfigQuery.py: RedundancyQuery.exec, ContainmentQuery.exec"])
p("C81","The text of a difference of connections shows a true difference",
 "print_diff of two sets of connections answers one of: that a named one allows all connections while the other does not, and this is so; that a named one allows communication on an item while the other does not, and then every connection with the values of that item is in the first and not in the second, and there is such a connection; or No diff., and then the sets have the same connections. The item's text lists the name and value of each of its dimensions. The texts of protocols and methods read back as their values. With the domains of the code some text is always made. The subtractions must be exact: not of a set emptied by earlier operations; a fresh empty set is fine.",
 "all sets built by the operations over any domains, lists of dimensions and names",
 "The item is taken from the first cube of a difference, with only its active dimensions, paired by position with their names; tests check a few texts.",
 ["nca/CoreDS/ConnectivityProperties.py: print_diff, _get_first_item_str", "nca/CoreDS/CanonicalHyperCubeSet.py: get_first_item"])
p("C82","The list of differences of two configurations has exactly the differences",
 "If the equivalence query finds two configurations with the same peers not equivalent, then with full explanations every connection between the peers of an entry and with its properties is allowed by the configuration of the entry's side and not by the other one, and every such connection (with a non-empty host and path) is in an entry of its side. Without full explanations there is at most one entry for each side, which is true in the same sense, and one for each side that allows more. The text of an entry with connections names the configuration of its side and says that it allows everything, or gives an item all of whose connections are among those of the entry.",
 "all configurations and differences",
 "The entries are the cubes of differences of cube sets, cut into peers and properties; tests look at the outputs of few pairs of configurations.",
 ["nca/NetworkConfig/NetworkConfigQuery.py: TwoNetworkConfigsQuery._append_different_conns_to_list, EquivalenceQuery.check_equivalence", "nca/NetworkConfig/QueryOutputHandler.py: ConnectionsDiffExplanation"])
if __name__=="__main__":
    with open("/verif/properties.jsonl","w") as f:
        for x in P: f.write(json.dumps(x)+"\n")
    print(len(P))

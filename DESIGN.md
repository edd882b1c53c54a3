# Formal model of network-config-analyzer (NCA) in Rocq

Source under study: `/repo` (IBM/network-config-analyzer, pinned). The code is read as text; nothing is executed.
Prover: Coq/Rocq 8.16.1. Everything is under `rocq/theories` (logical prefix `Verif`).

## 1. Method

* Shallow embedding. Each modelled Python function becomes one total Gallina function that follows the source
  branch by branch; its comment cites file and lines, and says what was simplified.
* Exceptions and failed assertions are values (`option`/result types). `while` loops are fuelled and the
  fuel-exhausted case is an error value which a theorem shows unreachable.
* In-place mutation becomes a returned new value (aliasing between Python objects is *not* modelled; for each
  modelled class the sharing was checked by reading, see the "aliasing" notes in the files).
* Python `int` is `Z` (unbounded). Python `dict` is an association list with Python's insertion/update order;
  `set` is a list or a predicate, depending on whether order can be observed.
* Specifications are stated on an independent, extensional meaning (membership of a point in a set), never
  through the helpers of the model.
* Files: `*.v` model files hold definitions; `*Facts.v` files hold proofs; `Prop*.v` hold one theorem per
  claim with `Print Assumptions`, and one `Example` per theorem showing a non-trivial instance of its hypotheses.
* A claim that is false of the faithful model is proved false (`..._refuted`, with a concrete witness checked by
  `vm_compute`) and the strongest true part is proved as `..._partial` (or under an explicit precondition).

## 2. Plan per property

| id | what is modelled | how it is proved |
|----|------------------|------------------|
| C01-C04 | `CanonicalIntervalSet` and its `Interval`, incl. both binary searches | membership semantics + sortedness invariant; loop invariants for the searches |
| C05-C07 | `PortSet`, `ProtocolSet`, `MethodSet`, `ProtocolNameResolver` | refinement to (numeric set, included names, excluded names) over operation histories; finite tables by exhaustive computation inside the kernel |
| C08-C13 | `CanonicalHyperCubeSet`: trees of layers over a per-dimension value algebra (record of operations + laws; instances: interval sets, and finite/co-finite name sets standing for `MinDFA`) with class tags | structural induction on the tree/dimension list; canonicity by extensionality |
| C10, C14, C15 | `ConnectivityProperties` specialisation (class tag in equality and copy) | as above; refutations by computation |
| C16-C18 | `IpBlock`, `BasePeerSet` | interval-set theory re-used; induction on registration history |
| C19 | label selectors of `PeerContainer` and the K8s selector parser | direct proof on label maps |
| C20-C26 | K8s/Calico/Istio policies, layers, config | over any lawful connection-set algebra (instantiated by the cube-set model); fold invariants |
| C27 | `PoliciesContainer`, `NetworkLayersContainer` | invariant over addition histories |
| C28 | `filter_conns_by_peer_types` | algebra |
| C29-C34 | the query classes of `NetworkConfigQuery.py` | over any lawful connection-set algebra (`QuerySpecs.v`, `SemDiff.v`, `QueryOne.v`), instantiated by cube sets over the query-time domain (`QueryAlg.v`, `PropQueries.v`); refutations by computation (`PropQueryCases.v`) |
| C44-C47 | `ConnectivityCube` → properties, named ports, auto connections, `PeerSet` | algebra, induction |
| C35 | query runner, comparison with expected output, command line return values, scheme runner | sums over executions, line-level specification of the comparison, case analysis (`PropRunner.v`); the meaning of the return values of the modelled queries by C30-C32 (`PropExit.v`) |
| C36 | firewall-rule minimisation | over any lawful connection-set algebra (`FWFacts.v`): invariants of the groupings by namespaces and labels; instantiated by cube sets (`FWAlg.v`), what the dictionaries of labels hold (`FWLabels.v`), the meaning of elements stated on pods, namespaces and labels (`PropFW.v`); cases and refutations in `PropFWCases.v` |
| C37 | graph summarisation | how a graph is read is stated first (edges, biclique nodes, paths through clique nodes, workloads written in one node); invariants of the loops over cliques and bicliques (`GraphFacts.v`), of the grouping of peers (`GraphGroups.v`), of the whole graph (`GraphDot.v`); statements in `PropGraph.v`, a graph and the refutations in `PropGraphCases.v` |
| C50 | Calico selectors | grammar as an inductive relation between texts and expressions (`CalicoSelectorFacts.v`), bracket-depth invariants for splitting and stripping (`CalicoSelectorGram.v`), refinement to sets (`CalicoSelectorSets.v`) |
| C48, C49 | Kubernetes policy documents, end to end | specification of the document (`K8sParserFacts.v`), refinement of the parser to it, composed with C24/C26 (`PropK8sParser.v`) |
| C39, C51 | Calico rules and policy documents | specification of the entry and the document, refinement of the parser (`CalicoParserFacts.v`, `CalicoRuleFacts.v`, `PropCalicoParser.v`); refutations and examples (`PropCalicoCases.v`) |
| C52 | Kubernetes and Calico documents together | C48 and C51 composed with C22, C24, C26, C27 (`PropCalicoParser.v`) |
| C40 | values of Istio authorization policies | prefix/suffix/presence as relations on words; the regular expression built for hosts and paths is read back by a model of its syntax (`PropIstioValues.v`) |
| C53 | Istio AuthorizationPolicy documents | what sources, operations, conditions and rules mean is stated on the decoded document (`IstioParserFacts.v`), the parser is inverted step by step (`PropIstioParser.v`, cases in `PropIstioCases.v`) |
| C54 | documents of the Kubernetes/Calico and Istio layers together | C52 and C53 composed with C25, C26, C27 |
| C38 | parser fragments over already-decoded YAML values | case analysis, string induction |
| C42 | paths of an Ingress rule | the words of the regular expressions (`IngressWords.v`); Kubernetes' routing stated on the elements of paths, fold invariant of the segregation (`PropIngressPaths.v`) |
| C60 | Ingress documents | the meaning of backends, paths, rules and documents is stated on the decoded document (`IngressDocs.v`); the parser is inverted and its folds described (`IngressFacts.v`, `GatewayFacts.v`), composed with C42 (`PropIngress.v`); cases and refutations in `PropIngressCases.v` |
| C61 | gateway layer | C60 composed with C24 and C26 (`PropIngressLayer.v`) |
| C62 | texts of label expressions | reader of the printed texts by a grammar (`read_expr`); induction on the simple keys of an expression, cases of the printed forms (`FWTextFacts.v`) |
| C63 | connectivity map | algebra of queries (`map_conns_spec`, `split_tcp_spec` in `MapFacts.v`: pointwise description of the connections that are written) composed with C36 |
| C64 | texts of connections | reader written independently (split at `{`, `}`, `:`, last comma); lemmas that splitting undoes joining (`ConnTextFacts.v`); canonical cubes (HyperTop `iter_spec`) and the complement by `h_sub_spec`; C06 for protocols and methods |
| C65 | list of connections without rules | reader of lines and sections written independently; lemmas on the dictionary (`add_edges`), projection of the peers out of cubes (`props_act`, `edges_of_cubes`), C64 for the connections of a line, C66 for the names of ranges; composed with the pointwise description of C63 (`PropConnList.v`, `PropConnListCases.v`) |
| C66 | texts of IP blocks | reader of addresses (RFC 4291), ranges and networks; digits by induction; invariant of the search for the longest run of zeros; greedy splitting into networks: alignment grows until it reaches the size of the rest, then the size shrinks (`IpTextFacts.v`) |
| C67 | policies of Istio Gateways and VirtualServices | what a route bound to a gateway means is stated on the records of the parsers (`IstioGwFacts.v`: `bound`, `request`, `reaches`); invariants of the folds over services, routes, gateways and destinations (`flows_are`); `PropIstioGw.v`, cases in `PropIstioGwCases.v` |
| C68 | the Istio gateway layer | C67 with the layer theorems of C25: Allow policies precede Deny policies, so the first opinion is the union of the Allow rules, then of the Deny rules |
| C69 | documents of Istio Gateways and VirtualServices | what the documents say is stated on the yaml (`IstioGwDocs.v`, `IstioVsDocs.v`, `IstioVsRoutes.v`: `gateway_doc`, `vs_doc`, `hosts_say`, `route_takes`, `dest_at`; `PropIstioGwDocs.v`: `doc_route`, `doc_enters`), the parsers are proved to keep it (invariants of the folds over documents, servers, hosts, matches and destinations), composed with C67 and C68; cases and refutations in `PropIstioGwDocsCases.v` |
| C70-C72 | the sanity query | the report is a list of issues; the loops over layers, policies and rules are proved to give exactly the issues of an independent description (`SanityFacts.v`, `PropSanity.v`), whose parts are the theorems C33 and C34; explanations are traced back to what policies and rules allow and deny on their own (C71); two lists sorted by order with agreeing opinions give the same first opinion (C72); cases and refutations in `PropSanityCases.v` |
| C73, C74 | `MinDFA` with its caches | a state of objects and six caches; an invariant (every cached result is right for all keys equal to its key, remembered complements are complements within the dimension, flags are true) is kept by every call (`MinDfaFacts.v`); texts of expressions are shown to be readable in one way by counting parentheses (`MinDfaText.v`); theorems in `PropMinDfa.v`, an example of a lawful library and refutations in `PropMinDfaCases.v` |
| C75, C76 | explanations | the tracker is a value carried through loading (`ExplFacts.v`: what the tracker knows of one peer after any documents), the layers (`ExplLayers.v`: where defaults are added) and the query (`ExplRun.v`: the pairs); the default of a direction is added exactly where no policy allows anything, because the lists are filled before the layers are evaluated; theorems in `PropExpl.v`, cases and refutations in `PropExplCases.v` |
| C77 | all explanations | `ExplAll.v`: each step of loading, layers and query keeps that peers with lists have an item (`tidy`), and the last step makes all peers of the query known; so no lookup of `explain_all` fails; theorems in `PropExplAll.v`, cases and the refutation in `PropExplAllCases.v` |
| C78-C80 | answers as text and dictionary | `OutModel.v`: explanations, answers and both output handlers; `OutFacts.v`: cutting texts at a character, lists of lines, words; counts in `PropOut.v`, injectivity of texts in `PropOutText.v`, dictionaries in `PropOutDict.v`, cases and refutations in `PropOutCases.v` |
| C81 | texts of differences | `DiffTextModel.v`: print_diff and its item; in `PropDiffText.v` the sample of C13 is restricted to the active dimensions, which decide membership; emptiness and fullness tests of `HyperTop.v` give the three kinds of answers |
| C82 | list of differences | `DiffListModel.v`: entries for the cubes of a difference; `PropDiffList.v`: peers and properties of a cube as for C65, texts by C81; `PropDiffEquiv.v`: with C29 for the equivalence query, cases |
| C41, C55 | Sidecar documents | which Sidecar governs a workload is stated on the documents (`SidecarFacts.v`), hosts and egress entries too (`SidecarEgressFacts.v`); fold invariants of `get_istio_sidecars`; `PropSidecar.v`, cases in `PropSidecarCases.v` |
| C56 | all documents with Sidecars, services and external names | C54's lemma `documents_and_layer` with C41 and C55 |
| C57 | target pods of services | the parser is inverted; fold invariant of the dictionary of services (`PropServices.v`) |
| C43, C58 | topology documents, replicas | what objects declare is stated on the documents (`TopologyDocs.v`, `TopologyLoad.v`); fold invariants of the loading (`TopologyFacts.v`); `PropTopology.v`, cases in `PropTopologyCases.v` |
| C59 | topology and policy documents together | C56 with the cluster of C58 and the services of C57 (`PropFromDocuments.v`, cases in `PropFromDocumentsCases.v`) |

## 3. Trusted base

* Coq's kernel (and its `vm_compute` reduction machine), coqc 8.16.1.
* What `Print Assumptions` prints for each theorem (section 6).
* The correspondence between the Gallina definitions and the Python source, which is by reading. Section 4 says
  which code is modelled, section 5 what is not.
* The standard library files that are loaded contain the module `Coq.ssr.ssrunder`, whose module type declares
  `Under_rel.{Over_rel, Under_rel_from_rel, over_rel, over_rel_done, Under_rel, Under_relE, under_rel_done}`. A scan
  of loaded axioms lists these; no theorem here depends on them (`Print Assumptions` prints "Closed under the global
  context" for every theorem).

## 4. What is modelled

| file | code |
|------|------|
| `IntervalModel.v` | `CoreDS/CanonicalIntervalSet.py` |
| `PortProtoModel.v` | `CoreDS/PortSet.py`, `ProtocolSet.py`, `MethodSet.py`, `ProtocolNameResolver.py` |
| `HyperModel.v`, `HyperDims.v` | `CoreDS/CanonicalHyperCubeSet.py`, `DimensionsManager.py` (active dimensions, domains) |
| `ConnModel.v` | `CoreDS/ConnectivityProperties.py`, `ConnectivityCube.py` |
| `PeerModel.v` | `CoreDS/Peer.py`: `IpBlock`, `PeerSet`, `BasePeerSet`; `PeerContainer.get_all_peers_group` |
| `PolicyModel.v` | `Resources/PolicyResources/*Policy.py`, `NetworkConfig/NetworkLayer.py`, `PoliciesContainer.py`, `NetworkConfig.allowed_connections` |
| `QueryModel.v` | `NetworkConfig/NetworkConfigQuery.py` (all queries but connectivity map, see `MapModel.v`, and sanity, see `SanityModel.v`), clones of `NetworkConfig.py` |
| `SanityModel.v`, `SanityFacts.v`, `PropSanity.v`, `PropSanityCases.v` | `SanityQuery` (`NetworkConfig/NetworkConfigQuery.py:408-672`); `is_conflicting`, `has_allow_rules`, `has_deny_rules`, `rule_containing` and the empty-rule explanations of the policy classes |
| `MinDfaModel.v`, `MinDfaFacts.v`, `MinDfaText.v`, `PropMinDfa.v`, `PropMinDfaCases.v` | `CoreDS/MinDFA.py` (all but `__contains__`, `__hash__` and `__repr__`-like helpers); `CoreDS/DimensionsManager.py`: the domain of paths and `get_dim_values_str` for automata |
| `ExplModel.v`, `ExplFacts.v`, `ExplLayers.v`, `ExplRun.v`, `PropExpl.v`, `PropExplCases.v` | `Utils/ExplTracker.py` (all but the XML of `explain_all` and the log), its calls in `PoliciesFinder.py`, `TopologyObjectsFinder.py`, `NetworkLayer.py`, `NetworkConfig.py` and `ConnectivityMapQuery.compute_connectivity_output` |
| `ExplAll.v`, `PropExplAll.v`, `PropExplAllCases.v` | `ExplTracker.explain_all` and `explain` of one name, over `ExplModel.v` |
| `OutModel.v`, `OutFacts.v`, `PropOut.v`, `PropOutText.v`, `PropOutDict.v`, `PropOutCases.v` | QueryOutputHandler.py; the answers of DisjointnessQuery, EmptinessQuery, RedundancyQuery, AllCapturedQuery and, for missing peers, ContainmentQuery, over `QueryModel.v` |
| `DiffTextModel.v`, `PropDiffText.v` | ConnectivityProperties.print_diff, _get_first_item_str, get_first_item with relevant dimensions |
| `DiffListModel.v`, `PropDiffList.v`, `PropDiffEquiv.v` | TwoNetworkConfigsQuery._append_different_conns_to_list and its use by the equivalence query |
| `RunnerModel.v` | `NetworkConfig/NetworkConfigQueryRunner.py`, `SchemeRunner.py` (counting), `nca_cli.py` (query selection, return values) |
| `YamlModel.v` | decoded YAML values, `Parsers/GenericYamlParser.py` (field checks, peer sets of CIDRs) |
| `ClusterModel.v` | the label, key and namespace look-ups of `NetworkConfig/PeerContainer.py` |
| `CalicoSelectorModel.v` | `Parsers/CalicoPolicyYamlParser.py:37-232` (selectors; the regular expressions as recursive matchers, `\w` restricted to ASCII) |
| `CalicoParserModel.v` | the rest of `Parsers/CalicoPolicyYamlParser.py` (policies, profiles, rules, ports, protocols, ICMP) |
| `K8sParserModel.v` | `Parsers/K8sPolicyYamlParser.py` |
| `IstioValueModel.v` | the value patterns of `Parsers/IstioPolicyYamlParser.py:25-74, 259-298`, and the reading of the regular expressions they give |
| `IstioParserModel.v` | the rest of `Parsers/IstioPolicyYamlParser.py`, the selectors of `IstioGenericYamlParser.py` |
| `ServiceModel.v` | `Parsers/K8sServiceYamlParser.py`, the services of `NetworkConfig/PeerContainer.py:195-269` |
| `IngressModel.v` | `Parsers/IngressPolicyYamlParser.py`, `GenericGatewayYamlParser.py`; the syntax of the regular expressions they build |
| `SidecarModel.v` | `Parsers/IstioSidecarYamlParser.py`, `Resources/PolicyResources/IstioSidecar.py:115-161` |
| `TopologyModel.v` | `NetworkConfig/TopologyObjectsFinder.py`, the dispatch of `ResourcesHandler.py`, the peers of `PeerContainer.py`, `Parsers/IstioServiceEntryYamlParser.py`, `canonical_form` of `CoreDS/Peer.py` (no NetworkSets) |
| `FWTextModel.v` | `FWRules/FWRule.py` LabelExpr (lines 11-132) with the values of `ClusterInfo.py:127-169`: the texts of the label expressions of rule elements |
| `MapModel.v` | `NetworkConfig/NetworkConfigQuery.py` ConnectivityMapQuery (lines 674-918): subset, connections, split by TCP; `nca_cli.py:176-186` label switches. Without explanations, the connectivity graph (see `GraphModel.v`), texts of namespaces of IpBlocks (the blocks are those rebuilt from connections, without namespace and labels) |
| `ConnTextModel.v` | `CoreDS/ConnectivityProperties.py:111-141, 491-527` with is_str: cubes as text, complement if shorter. The texts of hosts, paths and peers are a parameter |
| `IpTextModel.v` | `CoreDS/Peer.py:308-331` and `CoreDS/CanonicalIntervalSet.py:38-47` for IP blocks; of Python's `ipaddress`: the text of IPv4 and IPv6 addresses (without scope ids) and `summarize_address_range` |
| `ConnListModel.v` | `FWRules/ConnectivityGraph.py:37-70, 72-102 (first component, format_requirement=True), 306-335`, `NetworkConfigQuery.py:808-810, 832-837, 868-880`, `ConnectivityProperties.py:468-489` |
| `IstioGwModel.v` | `Parsers/IstioGatewayYamlParser.py`, `IstioVirtualServiceYamlParser.py`, `IstioGatewayPolicyGenerator.py`, `GenericGatewayYamlParser.py:59-70`, `Resources/OtherResources/Gateway.py`, `VirtualService.py`, the queue for them in `PoliciesFinder.py:72-131`; without warnings, origins and the findings about missing gateways |
| `IstioGwDocs.v`, `IstioVsDocs.v`, `IstioVsRoutes.v` | no new code: what the documents say (on the yaml), and that `IstioGwModel.v` keeps it |
| `GraphModel.v` | `FWRules/ConnectivityGraph.py` (from the map of connection sets to pairs of peers on) and the nodes and edges of `DotGraph.py`; networkx' clique finder is a parameter whose results are distinct, pairwise adjacent nodes; peers and their names, and connection sets and their texts, are parameters; not the layout text and the legend |
| `FWModel.v`, `FWAlg.v` | `FWRules/ClusterInfo.py`, `MinimizeFWRules.py`, `MinimizeCsFWRules.py`, the elements of `FWRule.py` (not their texts) |
| `ConnDict.v` | `ConnectivityProperties.make_conn_props_from_dict`, `ConnectivityCube.py` (setting by dictionary), named ports resolved by peers |

Each definition's comment gives the lines. Further files are listed with the property they serve in section 2.

## 5. Not modelled

The text of YAML files (the parsers are modelled from the decoded tree on), file scanning, git/helm/kubectl runners, logging, HTML/JSON rendering, the `greenery` regular
expression library behind `MinDFA` (replaced by a lawful algebra of word sets; `MinDFA` itself, with its caches and flags, is modelled in `MinDfaModel.v` over that algebra), Python object identity/aliasing (but for `MinDFA`),
hash collisions (Python dict lookups are modelled by equality only), the explanation of workloads (`--output_endpoints deployments`) in `ExplTracker` (modelled, not proved), output texts.

Assumptions of the query theorems about the objects they are given, all established by the constructors of the
model and shown satisfiable by examples: rules and selections built from registered peers (`policy_good`), containers
filled by `append_policy` (`loaded`), and `answerable` (see F38).

Assumptions of C53 and C54 about the libraries: `ip_network` gives a network for a text (`net`), and the automaton made from a
regular expression accepts the words the expression matches (`dfa_right`); that some non-empty host or path satisfies the lists
(`words_benign`, see F4). The theorems exclude documents of the findings F55-F63 by `benign_ap`.

Assumptions of C42, C60 and C61: the automaton made from a regular expression accepts exactly the words the expression matches (`reads`, for the expressions
that occur in the document); hosts are words over the alphabet of `MinDFA`, paths are such words that start with a slash (`domain_word`: the domain of paths
in `DimensionsManager.py`); the empty host is left out (`code_ok` gives it no meaning).

Assumptions of C69: as for C42 and C60 about the automata, for the expressions of the documents (`hosts_benign`, `uri_benign`); `re.match` with a text that is a beginning of the name of a method, also followed by `MinDFA.default_alphabet_regex`,
decides whether the name begins with it; methods are names of methods or beginnings of them (F107); the matches of a route may be combined (F106); numbers of ports are between 1 and 65535, and the ports of services have a target. The words of hosts and paths are fair: what stands
for a wildcard is one run of letters, digits and underscores, and where a prefix ends an element of the path ends. `headers`, `port`, `sourceLabels`, `destinationSubnets`, `sourceNamespace` and the like are not part of what a document says, as the code rejects them. Whether
the way out exists at all (`way_out`: some route served by an egress gateway and some route of the mesh to it) is stated on the parsed records; `C69_way_out` gives a condition on the documents.

Assumptions of C70-C72: those of C33 and C34. Not modelled: the texts of the explanations (the issues stand for them) and the findings attached to the policies (`add_finding`), which do not influence the report. C70_passes is stated for configurations without Pass rules and without IPv6 addresses in policies; C71_policy for configurations without host endpoints. C72_load_order asks that rules with connections have peers on both sides (`sides_present`; the parsers make such rules).

Assumptions of C73 and C74: the library's operations are those of sets of words and its structural equality is sound (`lawful`); hashing is not modelled (a lookup finds an entry with an equal key); all calls are for one dimension (two dimensions: F117, F118); `inside` (expressions describe words of the dimension and only expressions with a star describe all of them; otherwise F119, F120) for the answers; `canonical_domain` (the automaton of the domain is unique, the docstring's own assumption) for `is_dfa_wll_words` and the texts; `readable` (the expressions of the inputs have balanced parentheses and no operator characters outside of them, and different readings of a text do not collide) for the texts. A library and dimensions of hosts and of paths with all these properties are given in `PropMinDfaCases.v`.

Assumptions of C75 and C76: those of C63 and no Pass rules (`plain`; with them F124); the documents read have exactly the policies of the configuration (`documents_of`) and none is called Default-Policy; names of peers are distinct, non-empty and without brackets (`names_apart`, `described`); output endpoints are pods; for C75, `simple_for` (a policy selecting the pod which allows something in the direction is in force there and allows for the pod what it allows for other pods it selects; otherwise F122, F123). In the code the connection sets of a policy are read by the tracker while the domain has all peers of the topology; the model reads them over the domain of the query. The peers of the configuration are those of the topology, as for a single configuration.

Assumptions of C77: those of C76; for all pairs, no name of a peer is empty or has brackets (`nameable`) and at least one endpoint was read from a document.

Assumptions of C78-C80: `sorted` permutes its argument; titles of policies differ (C78; without it F130); names have no commas and ends of lines, and for peers in texts of connections no blank after a colon (C79), and no white space (C80). Parameters: `str` and `print_diff` of connections (their texts are C64 and C81), the names of pods. Not modelled: the dumping by the json and yaml libraries, the texts of differences of two configurations beyond their frame.

Assumptions of C81: domains are non-empty; the subtractions are exact, that is, not of a set emptied by operations from something not trivial (F1); MinDFA.rep gives some text for a representative (parameter `word_rep`).

Assumptions of C82: those of C29; connections with an empty host or path may be missing in the list. Not modelled: the sorting of the list, the texts of lists of peers.

## 6. Print Assumptions

Every theorem named in MANIFEST.json prints "Closed under the global context": no axioms at all. The
`Print Assumptions` commands are at the ends of the `Prop*.v` files, so the build log repeats this list.

## 7. Findings

Proved in the model (theorem in brackets):

* F1 Subtracting from an empty `CanonicalHyperCubeSet` with reduced active dimensions gives an object that is "true"
  but has no cubes [`C08_subtraction_from_empty_refuted`; at policy level `C20_emptiness_with_pass_refuted`].
* F2 Equality of `ConnectivityProperties` compares class tags of sub-objects: equal sets may compare unequal
  [`C10_connectivity_properties_equality_refuted`].
* F3 `get_peer_set_by_indices` clamps indices beyond the registered pods to the last pod [`C18_unregistered_indices_refuted`].
* F4 Projection on hosts/paths starts from {""} instead of the empty set [`C14_projection_on_words_refuted`,
  `C44_empty_word_refuted`]; F22 projection of an empty object on an inactive dimension gives the whole domain
  [`C14_projection_of_empty_refuted`].
* F5 Istio policies are ordered by `__lt__` also against Sidecars: a Deny inserted after a Sidecar comes late
  [`C22_deny_before_allow_any_order_refuted`, `C25_late_deny_refuted`].
* F6 A reversed interval breaks canonicity [`C02_reversed_interval_refuted`].
* F7 RedundancyQuery overwrites the list of redundant policies per layer; only the last layer's are listed
  [`C33_listed_policies_refuted`].
* F8 An exception outside of the CIDR is not rejected [`C16_outside_exception_rejected_refuted`].
* F19 `PortSet |=` ignores excluded names [`C05_union_drops_exclusions_refuted`]; F20 a named port is resolved for all
  protocols [`C45_named_port_ignores_its_protocol_refuted`].
* F21 Reordering/minimizing "everything" raises IndexError [`C15_reorder_of_everything_refuted`].
* F23 `PeerSet.__contains__` misses blocks covered by two members [`C47_contains_is_coverage_refuted`].
* F28 RedundancyQuery moves the modified Calico policy behind others of equal order before comparing
  [`C33_moved_policy_refuted`].
* F29 TwoWayContainment returns 0 instead of 3 for identical policies in scheme mode [`C30_same_policies_refuted`].
* F30 InterferesQuery compares explicitly allowed connections on both sides [`C31_interferes_with_default_refuted`].
* F31 The shortcut for equal policy dictionaries ignores insertion order [`C29_insertion_order_refuted`].
* F32 The duplicate-rule shortcut of `find_redundant_rules` is unsound for Calico [`C33_calico_twin_refuted`].
* F34 Policy equality ignores the kind; DisjointnessQuery stops at an equal earlier policy [`C34_kinds_refuted`].
* F35 F2 seen from EquivalenceQuery: "not equivalent" with an empty difference [`C29_all_addresses_refuted`].
* F36 SemanticDiff looks only at peers some policy selects [`C32_unselected_peers_refuted`].
* F38 F1 seen from EquivalenceQuery [`C29_nothing_allowed_refuted`].
* F39 An `ipBlock` entirely excepted is an inhabited peer set for EmptinessQuery [`C34_excepted_block_refuted`].
* F40 DNS destinations: the Istio default depends on unrelated pods [`C25_dns_refuted`]; explicitly allowed connections
  are lost with host endpoints and no K8s/Calico layer [`C26_explicitly_allowed_with_host_endpoints_refuted`].
* F10 `run_query` returns a plain 0 for a comparison of fewer than two configurations; both callers unpack a triple
  [`C35_one_config_refuted`]. F15 The exit-code bits collide for results above 1; they stay below 2 on the command line
  [`C35_unbounded_refuted`, `C35_command_answers`].
* F41 An expected-output file without lines is not compared with the first line of the output
  [`C35_empty_file_refuted`]; an output with trailing white space is never equal to the file it was stored in
  [`C35_trailing_space_refuted`].
* F42 Scheme runs: only the last query key of a query counts, although the documentation says "sum"
  [`C35_sub_queries_refuted`]; the exit status is the number of mismatches modulo 256 [`C35_status_refuted`]; 7 mismatches
  look like an exception [`C35_seven_refuted`]; if html output is asked for by several queries, or not by the first, nothing
  is run and the exit status is 0 [`C35_html_refuted`].
* F43 A `podSelector` with `Exists`/`DoesNotExist` beside a `namespaceSelector` looks for pods of the policy's own
  namespace only (`K8sPolicyYamlParser.py:148`) [`C19_exists_in_other_namespace_refuted`].
* F44 A namespace without the label counts as having the value "" [`C19_empty_namespace_value_refuted`].
* F45 The `namespaceSelector` `{}` also selects Calico host endpoints [`C19_every_namespace_only_pods_refuted`].
* F47 `egress: []` without `policyTypes` makes a policy about egress; Kubernetes adds Egress only if there are egress rules
  [`C38_empty_egress_refuted`].
* F48 `endPort: 0` without `port` is accepted; every other `endPort` without `port` is rejected [`C38_zero_end_refuted`].
* F13 Calico selectors: text after a complete label expression is ignored, so `app == 'db' | app == 'web'` (one bar) means
  `app == 'db'` without any error [`C50_only_selectors_accepted_refuted`]; quoted words after the braces of `in {...}` count
  as values [`ex_in_garbage`].
* F9 Calico ICMP types and codes 0 are ignored (truthiness in `_parse_icmp`) [`C39_icmp_type_zero_refuted`].
* F11 `protocol` with a different `notProtocol` matches nothing [`C39_protocol_and_not_protocol_refuted`].
* F12 `icmp` equal to `notICMP` matches all of ICMP instead of nothing [`C39_same_not_icmp_refuted`]; F49 a `notICMP` with the type
  only is ignored beside an `icmp` of this type with a code [`C39_wider_not_icmp_refuted`].
* F50 A named port that stands for an excluded number is still matched [`C39_name_minus_number_refuted`].
* F51 `ports: []` matches nothing instead of every port [`C39_empty_ports_refuted`].
* F52 Named source ports are dropped [`C39_named_source_port_refuted`].
* F53 An empty `egress` (or `ingress`) section without `types` changes the directions of a Calico policy
  [`C51_empty_egress_refuted`].
* F55 A source with `notIpBlocks` only (or a `source.ip` condition with `notValues` only) is not read: `IpBlock(interval)` raises
  a ValueError (`IstioPolicyYamlParser.py:169-173`) [`C53_not_ip_blocks_refuted`].
* F56 With a Calico host endpoint in the cluster no principal is read: AttributeError at `service_account_name` (line 41)
  [`C53_host_endpoint_refuted`].
* F57 A service account (or namespace) name with a dot is cut at the dot (`[\w-]+`, line 104), so its principal selects the pods of
  another account [`C53_dotted_account_refuted`].
* F58 An empty list beside one that is not empty matches nothing instead of counting as not given [`C53_empty_list_refuted`];
  empty `paths` raise an AssertionError.
* F60 `selector: {}` (and `matchLabels`) in the root namespace selects host endpoints too [`C53_empty_selector_refuted`].
* F63 An AuthorizationPolicy without `spec` (allow nothing) selects nothing, so it is ignored [`C53_no_spec_refuted`].
* F64 Two Sidecars of equal priority that select a common pod (or two default Sidecars of a namespace) abort the parse; the code that
  should ignore the later one is never reached (`IstioSidecarYamlParser.py:174, 183`) [`C41_ties_rejected`].
* F65 The namespace in the name of a service host is not looked at: `*/web.ns.svc.cluster.local` reaches `web` of all namespaces
  [`C55_namespace_of_a_name_refuted`].
* F66 `*.ns.svc.cluster.local` stands for every service in scope and every external name [`C55_wildcard_name_refuted`].
* F67 `*.cluster.local` and `*.local` reach no service [`C55_short_suffix_refuted`].
* F68 `egress: []` forbids the IP addresses that `ALLOW_ANY` allows [`C55_empty_egress_refuted`].
* F69 `REGISTRY_ONLY` without `egress` is ignored [`C55_registry_only_refuted`].
* F70 A host `*.com` does not reach the external name `*.ibm.com` [`C55_wildcard_entry_refuted`].
* F71 The form by which pods are counted has no ports: a third pod of an owner is dropped also if it alone has a named port
  (`CoreDS/Peer.py`, `canonical_form`) [`C43_equal_ports_refuted`]; F72 nor the service account [`C43_equal_accounts_refuted`].
* F73 A ReplicaSet name of hexadecimal digits loses its last letter, so different owners are counted together [`C43_same_owner_refuted`].
* F74 The third host endpoint with the same labels is dropped [`C43_hosts_always_registered_refuted`].
* F75 Additions are counted, not pods: a pod listed twice takes the place of the second replica [`C43_two_different_replicas_refuted`].
* F76 A Namespace document after a pod of the namespace is not seen by this pod (`ResourcesHandler.py:396-403`)
  [`C58_namespace_labels_refuted`].

* **F83** Two Prefix paths that are the same (also `/foo` and `/foo/`, or one Prefix and one ImplementationSpecific) eliminate each other in
  `segregate_longest_paths_and_make_dfa`: no request is routed by either (`IngressPolicyYamlParser.py:173-180`) [`C42_duplicates_refuted`].
* **F84** A dot in a path is a dot of the regular expression: the path `/a.b` also gets the requests for `/axb`
  (`IngressPolicyYamlParser.py:160`, `GenericGatewayYamlParser.py:106`) [`C42_dot_refuted`].
* **F85** A rule for all hosts (no `host`, or `*`) and a default backend: the remaining hosts are the empty automaton, `if hosts_dfa:` takes this for "all hosts", and
  the default backend gets the requests of every rule (`IngressPolicyYamlParser.py:200-203, 283-286`) [`C60_default_of_all_hosts_refuted`].
* **F86** The same with a Prefix path `/`: the default backend gets all requests of the host (`IngressPolicyYamlParser.py:202, 243`) [`C60_default_of_all_paths_refuted`].
* **F87** A `resource` backend (or a service without pods) without default backend: `dst_peers` is set to None, so the controller may reach all ports of
  all peers with these requests [`C60_resource_backend_refuted`]; if another path comes first, its backend gets the requests, since the cube is
  updated in place (`IngressPolicyYamlParser.py:233`) [`C60_previous_backend_refuted`].
* **F88** A wildcard host is read as `[\\w]*`: it does not match a label with a hyphen, and matches an empty one (`GenericGatewayYamlParser.py:47-56`)
  [`C60_wildcard_label_refuted`].
* **F89** A rule for a host does not take precedence over a wildcard rule or a rule for all hosts: the backends of both are allowed; two rules for the same host
  are not merged either (`IngressPolicyYamlParser.py:272-281`) [`C60_host_precedence_refuted`].
* F90 A default backend without rules is a TypeError (`domain - None`), so are a rule without `http` and `rules: null` [`ex_crashes`].
* F91 A path whose service or port does not exist is ignored, so a shorter path or the default backend gets its requests; a host all of whose paths are
  ignored gets no default backend at all (part of the specification `ingress_benign` of C60, which asks that the backends exist).
* **F92** With any Ingress document, no connection from or to a host endpoint is left: the gateway layer inherits the treatment of host endpoints of the K8s/Calico
  layer, where only Calico policies allow them anything (`NetworkLayer.py`) [`C61_host_endpoints_cut_off`].
* **F94** The minimized rules allow more than the connections they summarise: pods and host endpoints of a rule between namespaces or pod sets are connected to themselves as well,
  whether they were or not (`MinimizeCsFWRules.py:119-134` adds the connection of a peer to itself before testing coverage) [`C36_self_refuted`]; nothing else is added [`C36_rules`].
* **F95** The rules lose the connections whose only host (or path) is the empty word: the cube is dropped as an empty one (as F1) [`C36_empty_host_refuted`].
* **F97** (was F14) The clique nodes of the namespaces are named `clique_0`, `clique_1`, … for every connection set anew (`ConnectivityGraph.py:166`; the nodes outside namespaces and the bicliques have the connections in their
  names).  Nodes with one name are one node of a dot graph, so cliques of different connection sets are joined: the graph shows connections that are not allowed [`C37_clique_names_refuted`]; with distinct names it does not [`C37_graph`].
* **F98** A group of peers that are connected with each other by two connection sets (for example one for TCP and one for UDP) shows the last of them only (`ConnectivityGraph.py:283-284,295-296`) [`C37_group_refuted`].
* **F99** Peers that are not connected with each other but to the members of a clique are written in one node, which is connected to the clique node; its tooltip "Traffic allowed between any two workloads connected to the CLIQUE" is wrong for
  them [`C37_clique_tooltip_refuted`].
* **F100** The expression of an element whose key joins several labels lists the values of each label on its own (`FWRule.py:105-126`): in a namespace with pods with app=x, role=1; app=y, role=2; and app=x, role=2, the rule for
  the first two prints "has(app) and has(role)", which the third satisfies although its connections are not those of the rule [`C62_two_labels_refuted`].

* **F101** `--deployment_subset web` also chooses the pods of the deployment webserver: a name is looked for anywhere in the names of owners (`NetworkConfigQuery.py:701-709`), and a name with a "/" anywhere in the workload
  name. `C63_deployment_refuted`.
* **F102** `--label_subset app:web,app:db` asks for endpoints with both labels (no endpoint has them) and chooses those with app=db: the labels of a switch are put into a dictionary (`nca_cli.py:176-186`). `C63_repeated_key_refuted`.
* **F103** `--namespace_subset None` chooses all addresses and DNS entries: the namespace is compared as a text (`NetworkConfigQuery.py:692-696`); visible in `chosen` of C63.
* **F104** With `outputEndpoints: deployments` the list without rules names a pod by its workload (`ConnectivityGraph.py:92-97`): a line for one replica looks like a line for all of them, sets of connections that differ in the
  replica have the same text, and connections between different replicas of a workload are left out (`exclude_self_loop_conns` compares names, lines 323-325) [`C65_deployments_refuted`]; with names of pods the text determines the connections [`C65_pods`].
* **F105** The name of a gateway policy holds the name of the virtual service, the number of the route *among the routes of its kind* and the gateway (`IstioGatewayPolicyGenerator.py:60-71, 164-201`): a VirtualService with an http and a tcp (or tls)
  route through the same gateway gives two policies of one name and the tool stops with "A policy named ... already exists" [`C67_policies_fit_refuted`, `C67_container_takes`]; likewise two destinations of one route that are the egress gateway.
* **F106** The `uri`, the `method` and the `gateways` of the matches of one http route are united one by one (`IstioVirtualServiceYamlParser.py:190-217`, `VirtualService.py`): a route with the matches GET below /foo and POST of /bar also allows POST below
  /foo and GET of /bar [`C69_matches_refuted`]; a match without `uri` beside one with a `uri` loses its "any path", and the gateways of one match serve all matches. C69 is stated for routes whose matches may be combined (`http_whole`, `tls_whole`), which holds for a single match.
* **F107** An exact `method` is tested with `re.match`, at the beginning of the names (`IstioVirtualServiceYamlParser.py:151-188`, `MethodSet.py:33-42`): "P" allows POST, PUT and PATCH [`C69_methods_refuted`]; a text that fits no method gives the empty set, which is false, and the match gets all methods (lines 210-214).
* **F108** The policy that lets the mesh into the egress gateway holds the ports, paths and methods of the route but not the hosts of the VirtualService (`IstioGatewayPolicyGenerator.py`): the mesh may send requests for other hosts to the egress gateway [`C69_entrance_hosts_refuted`];
  the policies of the egress gateway do hold them.

* **F109** The sanity query ends with an AttributeError if a redundant rule of a Kubernetes policy is contained in a rule of a Calico policy of the same layer: `K8sPolicyRule` has no attribute `action` (`CalicoNetworkPolicy.py:262-277`) [`C70_mixed_refuted`];
* **F110** It also ends with an exception if a redundant policy has the full name of a policy of another kind: `clone_with_just_one_policy` finds two (`NetworkConfig.py:124-140`, `NetworkConfigQuery.py:465,488,553-589`) [`C70_names_refuted`];
* **F111** A Deny rule of a Calico policy that is contained in a rule of a Kubernetes policy is explained without saying that the actions differ (`K8sNetworkPolicy.py:142-159` always answers False) [`C71_actions_refuted`];
* **F112** The search for an explanation ends at the first policy with a smaller order (`NetworkConfigQuery.py:460-462,483-485,514-516`), and the policies are sorted by increasing order: the policies that precede, which are those that make a rule redundant, are never considered; the comment says the remaining ones have a lower priority. An order of 0 counts as no order [`C71_search_refuted`];
* **F113** A redundant sidecar is said to contain no effective allow/deny rules, whatever its rules are (`NetworkPolicy.py:268-282`, not overridden in `IstioSidecar.py`) [`C71_sidecar_refuted`];
* **F114** A redundant policy with ingress rules only may be said to be contained in a policy with egress rules only: alone, the latter allows all ingress [`C71_direction_refuted`];
* **F115** Calico policies of equal order are reported as conflicting if one has an Allow rule and the other a Deny rule in the same direction, also if the rules have no connection in common [`C72_spurious_refuted`];
* **F116** Conflicts between a Kubernetes policy and a Calico policy of order 1000, and between Pass and Deny (or Allow) rules of Calico policies of equal order, are not reported although the order of loading decides what is allowed [`C72_thousand_refuted`, `C72_pass_refuted`];
* **F117** Hosts and paths share the objects of equal expressions (`dfa_from_regex` has one cache) and an object remembers one complement (`complement_dfa`): after `notPaths: ["*foo"]` the values `notHosts: ["*foo"]` stand for the complement within the paths, and e.g. the host `a` is lost [`C73_dimensions_refuted`];
* **F118** The same with the value `*`: after it was subtracted from the hosts, subtracting it from the paths leaves the empty word, which is no path; otherwise nothing is left [`C73_presence_refuted`];
* **F119** The path value `*` (expression `[.\w/\-]+`) has no star character and is taken for "not all words": all paths are said not to be contained in it although each of them matches [`C73_star_refuted`];
* **F120** A value that is no path, subtracted from all paths, leaves all paths, but the result is marked "not all words": the dimension is not reduced and containment is denied [`C73_outside_refuted`];
* **F121** The empty set of hosts and the set of the empty host have the same (empty) text [`C74_empty_refuted`];
* **F122** A Calico policy with a source selector in an egress rule (or destination selector in an ingress rule) is listed as a reason for every pod it selects, also for those its rules are not about [`C75_source_selector_refuted`];
* **F123** A Sidecar is listed as the reason of any connection *to* the pods it selects, in place of Default-Policy, although it has no say about ingress [`C75_sidecar_refuted`];
* **F124** A connection that a Calico policy passes on is explained by nothing on that side, and the pod itself is written below "Policy Configurations:" [`C75_pass_refuted`];
* **F125** Policies of the same name in different namespaces share one entry: the explanation gives the file and line of the one read last [`C75_place_refuted`];
* **F126** With a subset of endpoints, a lack of connectivity is reported for pods outside of it that are connected [`C76_subset_refuted`];
* **F127** With Istio policies, a lack of connectivity is reported for pods whose non-TCP connections are in the map [`C76_non_tcp_refuted`];
* **F128** With a subset, explaining a pod that is in no connection of the map ends in an assertion (the peer is not found, and None has no index) [`C76_unknown_refuted`];
* **F129** If output endpoints are deployments, the explanation of ALL has one pod of each deployment: connections between pods of one deployment have no entry, and policies of the other pods are in no text [`C77_deployments_refuted`];
* **F130** A NetworkPolicy and an AuthorizationPolicy of one name have one title: the emptiness answer counts the empty rules of both but lists those of one (the dictionary entry is overwritten) [`C78_same_name_refuted`];
* **F131** RedundancyQuery lists full names where titles are expected: with output format yaml or json the query fails with IndexError (`split()[1]`) exactly when a whole policy is redundant [`C80_redundancy_refuted`, `C80_redundancy_dict`];
* **F132** In yaml and json, a containment that fails because peers are missing has the explanation [description, pods], the keys of the dictionary, and no peer is named [`C80_missing_peers_refuted`];
* **F133** In yaml and json, all empty Ingress resources are named `resource` and all gateway policies `Gateway/VirtualService` [`C80_gateway_names_refuted`];

Noticed by reading, not (yet) proved:

* In yaml and json an entry of the list of differences says `No connections` of the configuration that allows less, whatever else it allows between the two peers (NetworkConfigQuery.py:995-1001, QueryOutputHandler.py:269-273).

* Istio documents: a wildcard host stands for several labels in Istio, the expression of the code accepts one run of word characters (`GenericGatewayYamlParser.py:59-70`; C69 is stated for words on which both agree); a `prefix` of a `uri` is read by
  elements of the path (Istio: as the beginning of the text); a dot in an exact `uri` or method stands for any character; the result of `regex.replace` is thrown away (`IstioVirtualServiceYamlParser.py:176`); a match with `ignoreUriCase` is rejected although line 177 reads
  it; routes are united although Istio takes the first match; a destination without port whose service has several ports gets no connections, yet an egress gateway's Deny policy is made of it; the hosts of all servers of a Gateway are united whatever their ports. The tool stops
  with an exception for a tls match in a VirtualService without hosts, for sniHosts with a namespace, for a port number the service does not have, and for a host with a star in a destination.

* A host endpoint may be called `10.0.0.5` (a valid name), which the list without rules does not tell from the address; C65_pods therefore asks that no name reads as an address.

* Texts of sets with IPv6 addresses among the peers contain `:` (outside C64's condition on the texts of peers). The outputs project the peers out before printing, so this concerns logs only.
* F96 `_create_fw_elements_from_base_element` (`MinimizeCsFWRules.py:378-382`) does not end if a pod of the connections is not one of the peers of the `ClusterInfo`; the `None` namespace groups host endpoints with DNS entries; F16 `_optimized_allow_egress_props` is a misspelt attribute; F17 `allowed &= all_allowed`; F18 MinDFA complement cache
  is shared; F24 `_add_interval_to_list` has no callers; F25 `clone_without_rule` removes all equal rules; F26
  `dataclasses.replace` re-runs `__post_init__`; F27 default DNS handling of Istio ingress; F33 redundant policies are a
  set of names; F46 an `ipBlock` with `cidr: ""` is accepted and holds no address; F54 `ports: http` (a text) is read letter by letter, `ipVersion` is ignored, and `icmp` is ignored without an ICMP `protocol`; F59 path values are not intersected with the domain of paths; F61 `notNamespaces`/`notPrincipals` never match sources outside the cluster (taken over into the specification of C53); F62 a condition with `key: ''` passes the check of allowed keys and is ignored; `rules: null` is a TypeError and the root namespace is the constant `istio-config`; F77 items of a PodList without `kind` have the service account ""; F78 `parallelism` of a CronJob is ignored; F79 a ServiceEntry with the host "" or "*." is accepted; F80 `namespace: ""` and `namespace: default` are two namespace objects of the same name; F81 a pod that lacks one named target port is no target of any port of the service; F82 `'svc.cluster.local' in name` also holds inside of names, and a trailing dot prevents a match; F93 `ingress-nginx` is searched in "namespace/name" of services, so all services of a namespace of that name count as the controller's; the protocol of a named target port is not compared with TCP; F37 values built over the default domain may lie outside the narrower domain at query time.

Mutation tests of the theorems are logged in `seeded/LOG.jsonl`.

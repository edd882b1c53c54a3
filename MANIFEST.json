{"claims": [
 {"property": "C01", "status": "proved", "theorems": ["C01_interval_algebra_exact"], "note": "precondition start<=end on every interval handed in"},
 {"property": "C02", "status": "proved", "theorems": ["C02_interval_sets_canonical", "C02_interval_equality_exact", "C02_reversed_interval_refuted"], "note": "start<=end required; the refutation shows what happens without it"},
 {"property": "C03", "status": "proved", "theorems": ["C03_interval_queries_exact", "C03_searches_terminate_in_range"], "note": ""},
 {"property": "C04", "status": "proved", "theorems": ["C04_printed_text_denotes_the_set", "C04_different_sets_print_differently", "C04_printed_items_denote_the_set"], "note": "sets of non-negative numbers, as in the claim"},
 {"property": "C05", "status": "proved", "theorems": ["C05_port_sets_track_history", "C05_port_set_equality_exact", "C05_union_drops_exclusions_refuted"], "note": "the extra refutation: |= ignores the names excluded by its operand"},
 {"property": "C06", "status": "proved", "theorems": ["C06_protocol_text_denotes_the_set", "C06_method_text_denotes_the_set", "C06_protocol_history_exact", "C06_illegal_protocol_rejected"], "note": ""},
 {"property": "C07", "status": "proved", "theorems": ["C07_names_map_into_range", "C07_numbers_round_trip", "C07_out_of_range_rejected"], "note": ""},
 {"property": "C08", "status": "proved", "theorems": ["C08_cube_set_algebra_exact", "C08_interval_instance_exact", "C08_subtraction_exact_when_first_dimension_active", "C08_subtraction_from_empty_refuted"], "note": "exact unless an empty object with reduced active dimensions is the left operand of a subtraction; that case is refuted by a witness"},
 {"property": "C09", "status": "proved", "theorems": ["C09_containment_exact"], "note": "for every class of object, same side condition on subtractions as C08"},
 {"property": "C10", "status": "proved", "theorems": ["C10_plain_equality_is_set_equality", "C10_equality_sound", "C10_truth_value_is_nonemptiness", "C10_connectivity_properties_equality_refuted"], "note": "holds for plain cube sets; for ConnectivityProperties equality is only sound, completeness is refuted by a witness"},
 {"property": "C11", "status": "proved", "theorems": ["C11_cubes_partition_the_set"], "note": ""},
 {"property": "C12", "status": "proved", "theorems": ["C12_single_cube_exact", "C12_add_cube_and_hole_exact"], "note": ""},
 {"property": "C13", "status": "proved", "theorems": ["C13_first_item_is_a_member", "C13_first_item_in_space", "C08_cube_set_algebra_exact"], "note": ""},
 {"property": "C14", "status": "proved", "theorems": ["C14_projection_exact", "C14_projection_on_words_refuted", "C14_projection_of_empty_refuted"], "note": "non-empty sets, interval dimensions; refuted for hosts/paths (their 'empty' start value is {\"\"}) and for empty sets with reduced dimensions"},
 {"property": "C15", "status": "proved", "theorems": ["C15_reorder_keeps_the_set", "C15_reorder_by_any_map", "C15_minimize_keeps_the_set_and_does_not_grow", "C15_reorder_of_everything_refuted"], "note": "every object that is not everything; everything raises IndexError (refutation)"},
 {"property": "C44", "status": "proved", "theorems": ["C44_cube_to_properties_exact", "C44_empty_word_refuted"], "note": "holds when the 'empty' value of each dimension is empty; refuted for the host value {\"\"}"},
 {"property": "C45", "status": "proved", "theorems": ["C45_named_ports_resolved_per_peer", "C45_single_protocol", "C45_named_port_ignores_its_protocol_refuted"], "note": "when names are excluded, some numeric connection must remain (see C08 refutation)"},
 {"property": "C46", "status": "proved", "theorems": ["C46_auto_connections_recognised", "C46_auto_connections_removed"], "note": "non-empty sets; at least two peers in the domain"},
 {"property": "C16", "status": "proved", "theorems": ["C16_ip_block_exact", "C16_equal_iff_same_addresses", "C16_split_count_family", "C16_mixed_exception_rejected", "C16_outside_exception_rejected_refuted"], "note": "extra refutation: an exception outside the CIDR is not rejected although the code comment says so"},
 {"property": "C17", "status": "proved", "theorems": ["C17_partition"], "note": ""},
 {"property": "C18", "status": "proved", "theorems": ["C18_round_trip", "C18_indices_determine_the_set", "C18_indices_stable_and_distinct", "C18_whole_domain", "C18_unregistered_indices_refuted"], "note": "extra refutation: indices beyond the registered pods are clamped to the last pod"},
 {"property": "C47", "status": "proved", "theorems": ["C47_peer_set_operations_exact", "C47_contains_exact", "C47_contains_is_coverage_refuted"], "note": "extra refutation: a block covered by two members of the set is not reported as contained"},
 {"property": "C20", "status": "proved", "theorems": ["C20_first_match", "C20_emptiness_with_pass_refuted"], "note": "no Pass rules, or no rule entirely shadowed; extra refutation: with Pass and a shadowed rule the empty Allow set is a true object"},
 {"property": "C21", "status": "proved", "theorems": ["C21_union_of_rules"], "note": ""},
 {"property": "C22", "status": "proved", "theorems": ["C22_sorted_by_order", "C22_layer_holds_its_policies", "C22_deny_before_allow", "C22_deny_before_allow_any_order_refuted"], "note": "Istio part: for the loader's order (Sidecars last); refuted for arbitrary insertion sequences mixing in Sidecars"},
 {"property": "C23", "status": "proved", "theorems": ["C23_first_decisive_policy_wins"], "note": ""},
 {"property": "C24", "status": "proved", "theorems": ["C24_k8s_calico_layer"], "note": ""},
 {"property": "C25", "status": "proved", "theorems": ["C25_istio_tcp", "C25_istio_tcp_to_address", "C25_non_tcp_unrestricted", "C25_late_deny_refuted", "C25_dns_refuted"], "note": "for lists in the loader's order; refutations: a Deny policy inserted after a Sidecar loses; DNS destinations depend on unrelated pods"},
 {"property": "C26", "status": "proved", "theorems": ["C26_all_allowed_is_the_intersection", "C26_explicit_denied_captured", "C26_denied_with_host_endpoints", "C26_explicitly_allowed_with_host_endpoints_refuted"], "note": "explicitly allowed connections: without host endpoints; with host endpoints and no K8s/Calico layer the explicit set is lost (refutation)"},
 {"property": "C27", "status": "proved", "theorems": ["C27_invariants", "C27_append"], "note": ""},
 {"property": "C28", "status": "proved", "theorems": ["C28_impossible_connections_removed"], "note": ""},
 {"property": "C29", "status": "proved", "theorems": ["C29_equivalence", "C29_all_addresses_refuted", "C29_nothing_allowed_refuted", "C29_insertion_order_refuted"], "note": "sound always; complete when IPv6 addresses are excluded; refutations: without the exclusion equal configurations may be reported different, two layers allowing nothing together, containers filled in different order"},
 {"property": "C30", "status": "proved", "theorems": ["C30_containment", "C30_two_way", "C30_same_policies_refuted"], "note": "refutation: scheme-mode number for identical policies"},
 {"property": "C31", "status": "proved", "theorems": ["C31_interferes", "C31_intersects", "C31_permits", "C31_forbids", "clones_lose_nothing", "without_gateways_list", "C31_interferes_with_default_refuted"], "note": "no host endpoints among the peers of the configuration whose explicitly allowed connections are used; refutation: interferes ignores what is allowed by default"},
 {"property": "C32", "status": "proved", "theorems": ["C32_exact_partition", "C32_answer", "C32_unselected_peers_refuted"], "note": "connections of a pod with itself are left out by the code; refutation: differences between peers no policy selects"},
 {"property": "C33", "status": "proved", "theorems": ["C33_redundant_policy", "C33_redundant_rule", "C33_twin_rule", "C33_answer", "C33_calico_twin_refuted", "C33_moved_policy_refuted", "C33_listed_policies_refuted"], "note": "policies without Pass rules; refutations: Calico duplicates, policies moved behind others of equal order, list of the last layer only"},
 {"property": "C34", "status": "proved", "theorems": ["C34_disjointness", "C34_emptiness", "C34_vacuity", "C34_all_captured", "C34_kinds_refuted", "C34_excepted_block_refuted"], "note": "refutations: overlap of equal policies of different kinds, address blocks excepted entirely"},
 {"property": "C35", "status": "proved", "theorems": ["C35_sums", "C35_base_pairs", "C35_pair_comparison", "C35_all_pairs", "C35_comparison", "C35_stored_output", "C35_return_value", "C35_exception", "C35_return_0", "C35_file_comparison", "C35_not_evaluated", "C35_command_answers", "C35_equiv", "C35_interferes", "C35_permits", "C35_forbids", "C35_nothing_asked", "C35_semantic_diff", "C35_scheme", "C35_scheme_counts", "C35_one_config_refuted", "C35_empty_file_refuted", "C35_trailing_space_refuted", "C35_unbounded_refuted", "C35_sub_queries_refuted", "C35_status_refuted", "C35_seven_refuted", "C35_html_refuted"], "note": "command line: decoded uniquely; the assumptions about the queries are proved of the modelled ones; scheme: one query key per query; refutations: unbounded results, comparisons of one configuration, several query keys, exit status modulo 256, html schemes, empty expected output"},
 {"property": "C19", "status": "proved", "theorems": ["C19_pod_requirement", "C19_namespace_requirement", "C19_policy_pod_selector", "C19_rule_pod_selector", "C19_namespace_selector", "C19_every_namespace", "C19_both_selectors", "C19_legal_selectors_accepted", "C19_exists_in_other_namespace_refuted", "C19_empty_namespace_value_refuted", "C19_every_namespace_only_pods_refuted"], "note": "selectors as the K8s parser reads them; refutations: Exists beside a namespaceSelector, empty values on namespaces, host endpoints in every namespace"},
 {"property": "C36", "status": "proved", "theorems": ["C36_rules", "C36_self_refuted", "C36_empty_host_refuted"], "note": "without the two exceptions the statement is false (F94, F95)"},
 {"property": "C38", "status": "proved", "theorems": ["C38_port_meaning", "C38_legal_ports_accepted", "C38_illegal_ports_rejected", "C38_flags", "C38_rules_outside_types_rejected", "C38_zero_end_refuted", "C38_empty_egress_refuted"], "note": "policyTypes defaults and ports; refutations: an empty egress section without policyTypes, endPort 0 without port"},
 {"property": "C48", "status": "proved", "theorems": ["C48_selected_pods", "C48_matched_connections"], "note": "for documents outside the findings F43-F45 and F47 (benign); network strings are decoded by a parameter"},
 {"property": "C49", "status": "proved", "theorems": ["C49_allowed_connections", "C49_allowed_by_configuration"], "note": "composition of C48 with C24 and C26, over the 10-dimensional cube sets"},
 {"property": "C50", "status": "proved", "theorems": ["C50_endpoint_selector", "C50_namespace_selector", "C50_reading_unique", "C50_only_selectors_accepted_refuted"], "note": "grammatical texts are accepted and mean what the grammar says; the converse (only selectors are accepted) is refuted"},
 {"property": "C39", "status": "proved", "theorems": ["C39_rule_connections", "C39_protocol_and_icmp", "C39_icmp_type_zero_refuted", "C39_protocol_and_not_protocol_refuted", "C39_same_not_icmp_refuted", "C39_wider_not_icmp_refuted", "C39_name_minus_number_refuted", "C39_empty_ports_refuted", "C39_named_source_port_refuted"], "note": "for rules outside the findings F9, F11, F12, F49-F52 (benign_crule), each of which is a refutation of the unconditional statement"},
 {"property": "C51", "status": "proved", "theorems": ["C51_flags", "C51_kind_and_order", "C51_selected_endpoints", "C51_first_rule_entry", "C51_allowed_denied_passed", "C51_empty_egress_refuted"], "note": "for documents outside the findings (benign_cdoc); refutation: empty egress section without types"},
 {"property": "C52", "status": "proved", "theorems": ["C52_allowed_connections", "C52_allowed_by_configuration", "C52_documents_in_order"], "note": "composition of C48 and C51 with C22, C24, C26 and C27; documents without Pass rules, or whose Pass rules are not shadowed"},
 {"property": "C40", "status": "proved", "theorems": ["C40_illegal_pattern", "C40_enumerated", "C40_rejected_values", "C40_regex_language", "C40_empty_name_refuted"], "note": "enumerated domains (namespaces, principals, methods) and the regular expression built for hosts and paths, read back by a model of the regular-expression syntax; the automaton library itself is outside"},
 {"property": "C53", "status": "proved", "theorems": ["C53_selected_workloads", "C53_action", "C53_rules_match", "C53_allowed_and_denied", "C53_empty_list_refuted", "C53_dotted_account_refuted", "C53_not_ip_blocks_refuted", "C53_host_endpoint_refuted", "C53_empty_selector_refuted", "C53_no_spec_refuted"], "note": "documents outside the findings F55-F63 (benign_ap), for automata that accept the words of their regular expression; each excluded case has a refutation or a note"},
 {"property": "C54", "status": "proved", "theorems": ["C54_documents_of_all_layers"], "note": "composition of C52 and C53 with C25, C26 and C27; Sidecars as policies that pass the checks of C25, added last"},
 {"property": "C41", "status": "proved", "theorems": ["C41_policies_of_documents", "C41_disjoint", "C41_ties_rejected", "C41_each_workload_has_one"], "note": "Sidecar documents; a tie of equal priority is refused with an error (F64)"},
 {"property": "C55", "status": "proved", "theorems": ["C55_well_formed", "C55_restricted", "C55_allowed", "C55_outbound", "C55_namespace_of_a_name_refuted", "C55_wildcard_name_refuted", "C55_short_suffix_refuted", "C55_empty_egress_refuted", "C55_registry_only_refuted", "C55_wildcard_entry_refuted"], "note": "documents outside the findings F65-F70 (benign_sc), each of which is a refutation of the unconditional statement"},
 {"property": "C56", "status": "proved", "theorems": ["C56_documents_of_all_layers"], "note": "composition of C54 with C41 and C55; for external names only TCP, with the condition of F27"},
 {"property": "C57", "status": "proved", "theorems": ["C57_target_pods", "C57_services", "C57_services_usable"], "note": "accepted documents"},
 {"property": "C43", "status": "proved", "theorems": ["C43_first_two_kept", "C43_first_two_kept_lists", "C43_at_most_two", "C43_dropped_have_two_replicas", "C43_without_owner", "C43_equal_ports_refuted", "C43_equal_accounts_refuted", "C43_same_owner_refuted", "C43_hosts_always_registered_refuted", "C43_two_different_replicas_refuted"], "note": "'alike' ignores ports and service accounts as the code does: the refutations show what is dropped although it differs (F71-F75)"},
 {"property": "C58", "status": "proved", "theorems": ["C58_namespace_of_a_pod", "C58_namespace_of_a_pod_lists", "C58_all_namespaces_seen", "C58_attributes", "C58_cluster_usable", "C58_namespace_labels", "C58_namespace_labels_lists", "C58_port_numbers", "C58_namespace_labels_refuted"], "note": "NetworkSets are outside the model (loading them is an error value); namespace labels if no Namespace document follows a pod (F76)"},
 {"property": "C59", "status": "proved", "theorems": ["C59_from_documents"], "note": "C56 with the cluster, accounts, profiles and services of C58 and C57"},
 {"property": "C42", "status": "proved", "theorems": ["C42_most_specific_path", "C42_exactly_one_path", "C42_duplicates_refuted", "C42_dot_refuted"], "note": "paths without dots and without two equal Prefix paths (F83, F84); automata that accept the words of their regular expression"},
 {"property": "C60", "status": "proved", "theorems": ["C60_ingress_policy", "C60_hosts_read", "C60_routes_like_kubernetes", "C60_default_of_all_hosts_refuted", "C60_default_of_all_paths_refuted", "C60_resource_backend_refuted", "C60_previous_backend_refuted", "C60_wildcard_label_refuted", "C60_host_precedence_refuted"], "note": "for documents meeting ingress_benign (findings F85-F89 are outside), and hosts whose wildcard part is a word the code reads (fair); the refutations show that these conditions are needed"},
 {"property": "C61", "status": "proved", "theorems": ["C61_gateway_layer", "C61_from_addresses", "C61_host_endpoints_cut_off", "C61_with_other_layers"], "note": "the layer over the policies of C60; host endpoints are cut off (F92)"},
 {"property": "C37", "status": "proved", "theorems": ["C37_summary", "C37_graph", "C37_clique_names_refuted", "C37_group_refuted", "C37_clique_tooltip_refuted"], "note": "peers written by distinct names; the clique nodes of different connection sets must have distinct names and a group one connection set, otherwise the statement is false (F97, F98)"},
 {"property": "C62", "status": "proved", "theorems": ["C62_label_text", "C62_rules_text", "C62_two_labels_refuted"], "note": "keys and values of letters, digits and -_./; exact for keys of one label, otherwise between the pods of the element and the box of their values (F100)"},
 {"property": "C63", "status": "proved", "theorems": ["C63_map_rules", "C63_deployment_refuted", "C63_repeated_key_refuted"], "note": "composition of the query algebra with C36; the exceptions of C36 (connections of an endpoint to itself, empty host or path) remain; a deployment is chosen by a part of its name (F101)"},
 {"property": "C64", "status": "proved", "theorems": ["C64_connection_texts", "C64_texts_distinguish", "C64_some_dimensions"], "note": "the texts of peers, hosts and paths are a parameter that must be readable and without ':', '{', '}' (an example of such a text is proved readable)"},
 {"property": "C65", "status": "proved", "theorems": ["C65_lines", "C65_list", "C65_map", "C65_pods", "C65_deployments_refuted"], "note": "C65_lines holds for every naming of peers without blanks; C65_pods is the statement for the names of pods and ranges that the code prints; with names of deployments the statement is false (F104)"},
 {"property": "C66", "status": "proved", "theorems": ["C66_ranges", "C66_networks", "C66_shorter", "C66_keys"], "note": "Python's ipaddress (text of an address, summarize_address_range) is modelled from its published sources"},
 {"property": "C67", "status": "proved", "theorems": ["C67_gateway_policies", "C67_container_takes", "C67_policies_fit_refuted"], "note": "on parsed gateways and virtual services (records of the parsers); that the generated policies always fit into the container is false: names are not unique (F105)"},
 {"property": "C68", "status": "proved", "theorems": ["C68_from_pods", "C68_from_addresses", "C68_non_tcp", "C68_only_through_the_gateway"], "note": "the layer over the policies of C67"},
 {"property": "C69", "status": "proved", "theorems": ["C69_documents", "C69_routes", "C69_entrances", "C69_way_out", "C69_ingress_gateways", "C69_matches_refuted", "C69_methods_refuted", "C69_entrance_hosts_refuted"], "note": "from the documents to the policies and the layer, for documents outside F106 and F107 and for words read in one way; the refuted statements are the versions without these conditions, and with hosts in the policies for the way into the egress gateway (F108)"},
 {"property": "C70", "status": "proved", "theorems": ["C70_issues", "C70_passes", "C70_runs", "C70_mixed_refuted", "C70_names_refuted"], "note": "issues stand for the texts; redundancy and vacuity in C70_issues are the answers of the queries, which C33 and C34 characterise; C70_passes is in terms of what is allowed (no Pass rules, no IPv6 in policies); exceptions: F109, F110"},
 {"property": "C71", "status": "proved", "theorems": ["C71_policy", "C71_rule", "C71_rule_unexplained", "C71_actions_refuted", "C71_search_refuted", "C71_sidecar_refuted", "C71_direction_refuted"], "note": "C71_policy without host endpoints; where the explanations mislead: F111-F114"},
 {"property": "C72", "status": "proved", "theorems": ["C72_conflict", "C72_load_order", "C72_spurious_refuted", "C72_thousand_refuted", "C72_pass_refuted"], "note": "refuted: that only policies that disagree are reported (F115), and that all are (F116)"},
 {"property": "C73", "status": "proved", "theorems": ["C73_operators", "C73_exact", "C73_made", "C73_answers", "C73_dimensions_refuted", "C73_presence_refuted", "C73_star_refuted", "C73_outside_refuted"], "note": "over a lawful library of automata (greenery is not modelled), for histories of one dimension; the refutations are about two dimensions in one history (F117, F118) and values outside of the dimension (F119, F120)"},
 {"property": "C74", "status": "proved", "theorems": ["C74_text", "C74_same_text", "C74_empty_refuted"], "note": "expressions that can be read back from a text in one way, canonical automaton of the domain; the exception of the last sentence occurs (F121)"},
 {"property": "C75", "status": "proved", "theorems": ["C75_explains_connection", "C75_source_selector_refuted", "C75_sidecar_refuted", "C75_pass_refuted", "C75_place_refuted"], "note": "names of peers distinct and without brackets, output endpoints not deployments; the refutations show that the restrictions of the last sentence are needed (F122-F124) and that the place of a listed policy may be that of another (F125)"},
 {"property": "C76", "status": "proved", "theorems": ["C76_explains_lack", "C76_subset_refuted", "C76_non_tcp_refuted", "C76_unknown_refuted"], "note": "same assumptions as C75 but for the restriction to simple policies; F126-F128"},
 {"property": "C77", "status": "proved", "theorems": ["C77_explains_one", "C77_explains_all", "C77_deployments_refuted"], "note": "same assumptions as C76; the XML around the entries is not modelled; F129"},
 {"property": "C78", "status": "proved", "theorems": ["C78_emptiness_counts", "C78_disjointness_counts", "C78_captured_counts", "C78_same_name_refuted"], "note": "titles of policies must differ; F130"},
 {"property": "C79", "status": "proved", "theorems": ["C79_rules_text", "C79_pairs_text", "C79_pods_text", "C79_conns_text", "C79_conns_peers"], "note": "names without commas and ends of lines, peers without a blank after a colon; texts of connections are a parameter"},
 {"property": "C80", "status": "proved", "theorems": ["C80_emptiness_dict", "C80_redundancy_dict", "C80_redundancy_refuted", "C80_missing_peers_refuted", "C80_gateway_names_refuted"], "note": "the json and yaml libraries are not modelled; F131-F133"},
 {"property": "C81", "status": "proved", "theorems": ["C81_differences", "C81_always_a_text", "C81_value_texts"], "note": "each of the two subtractions has a non-empty left side, or an empty or full right side, or a left side with all dimensions active (a fresh empty set); the text of representatives of hosts and paths is a parameter"},
 {"property": "C82", "status": "proved", "theorems": ["C82_all_differences", "C82_one_difference", "C82_texts", "C82_equivalence"], "note": "assumptions of C29; completeness for connections with a non-empty host and path; the sorting of the list is not modelled; C82_texts is about an entry with at least one connection and a text that was made"}
]}

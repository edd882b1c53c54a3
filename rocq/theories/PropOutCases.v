(** * Concrete cases and counterexamples for C78-C80 (PropOut.v, PropOutText.v, PropOutDict.v). *)
From Coq Require Import ZArith List Bool Arith String Ascii Lia Permutation.
From Verif Require Import IntervalModel HyperModel HyperInst TextModel PortProtoModel ConnTextModel GraphModel PeerModel PolicyModel QueryModel YamlModel ExplModel
                          IntervalFacts HyperFacts HyperTop PropHyperCube ConnModel PeerFacts PeerSetFacts PolicyLaws PolicyFacts LayerFacts OrderFacts ConnAlg StdDims HyperDims PropLayers QueryFacts QueryAlg QuerySpecs SemDiff QueryOne PropQueries PropQueryCases OutModel OutFacts PropOut PropOutText PropOutDict.
Import ListNotations.
Local Open Scope string_scope.
Local Open Scope nat_scope.
Local Open Scope list_scope.

Definition keep {X} (l : list X) : list X := l.
Definition no_text (x : hc val) : string := "".
Definition no_diff (x y : hc val) (a b : string) : string := "".
Definition o_empty : policy := Policy "none" "ns" TK8s true true [] [rq Allow [pb] [] None] [rq Allow [pb] [] None; rq Allow [] [pb] None] None Allow.
Definition o_g : config := cfg pods [empty_pol; o_empty].
Notation q_empty := (emptiness_answer "conf" keep o_g).

(** ** C78 *)
Example ex_C78_emptiness : told_apart o_g /\ qa_num q_empty = 3%Z /\ lists_rules q_empty ["NetworkPolicy ns/none"] [("NetworkPolicy ns/e", [1])] [("NetworkPolicy ns/none", [2])] /\
  (exists p, of_layers o_g p /\ p_selected p = []).
Proof.
  assert (L : layer_policies o_g = [empty_pol; o_empty]) by (vm_compute; reflexivity).
  split; [|split; [vm_compute; reflexivity|split]].
  - unfold told_apart. replace (map title (layer_policies o_g)) with ["NetworkPolicy ns/e"; "NetworkPolicy ns/none"] by (vm_compute; reflexivity).
    constructor; [intros [H|[]]; discriminate|]. constructor; [intros []|constructor].
  - left. exists " that does not select any pods". vm_compute. reflexivity.
  - exists o_empty. split; [|reflexivity]. apply in_layers. rewrite L. right. left. reflexivity.
Qed.
Definition o_names (s : peerset) : list string := map pname s.
Example ex_C78_disjointness : qa_num (disjointness_answer "conf" keep o_names qA rid0 g_two) = 1%Z /\
  qa_expl (disjointness_answer "conf" keep o_names qA rid0 g_two) = [EPairs "policies with overlapping captured pods" [Common "NetworkPolicy" "ns/q" "NetworkPolicy" "ns/p" ["ns/a"]]].
Proof. split; vm_compute; reflexivity. Qed.
Example ex_C78_captured : has_policies g_all = true /\ only_gateway_layers (lays (g_pols g_all)) = false /\ qa_num (all_captured_answer (C := hc val) "conf" pname g_all) = 5%Z /\
  List.length (qa_expl (all_captured_answer (C := hc val) "conf" pname g_all)) = 1.
Proof. repeat apply conj; vm_compute; reflexivity. Qed.
(** Finding F130.  Policies of different kinds with one name have one title: both are counted, but one list of rules is shown. *)
Definition same_k8s : policy := Policy "p" "ns" TK8s true false [pa] [rq Allow [] [pa] None] [] None Allow.
Definition same_istio : policy := Policy "p" "ns" TIstioAP true false [pa] [rq Allow [pb] [pa] None; rq Allow [] [pa] None] [] None Allow.
Definition same_g : config := cfg pods [same_k8s; same_istio].
Theorem C78_same_name_refuted : of_layers same_g same_k8s /\ of_layers same_g same_istio /\ void_rule same_k8s true 1 /\ void_rule same_istio true 2 /\
  qa_num (emptiness_answer "conf" keep same_g) = 2%Z /\
  qa_expl (emptiness_answer "conf" keep same_g) = [ERules " that does not select any pods" [] [("NetworkPolicy ns/p", [2])] []].
Proof.
  assert (L : layer_policies same_g = [same_k8s; same_istio]) by (vm_compute; reflexivity).
  split; [apply in_layers; rewrite L; left; reflexivity|]. split; [apply in_layers; rewrite L; right; left; reflexivity|].
  split; [apply empty_rules_In; vm_compute; left; reflexivity|]. split; [apply empty_rules_In; vm_compute; left; reflexivity|]. split; vm_compute; reflexivity.
Qed.

(** ** C79 *)
Example ex_C79_rules : one_line " that does not select any pods" /\ rules_tame ["NetworkPolicy ns/none"; "NetworkPolicy ns/x"] [("NetworkPolicy ns/e", [1; 3])] [("NetworkPolicy ns/e", [2])] /\
  in_str no_text no_diff (ERules " that does not select any pods" ["NetworkPolicy ns/none"; "NetworkPolicy ns/x"] [("NetworkPolicy ns/e", [1; 3])] [("NetworkPolicy ns/e", [2])]) =
  Some (unlines ["Policies that does not select any pods:"; "NetworkPolicy ns/none, NetworkPolicy ns/x"; ""; "Ingress rules that does not select any pods:"; "NetworkPolicy ns/e, ingress rules indexes: 1, 3"; "";
                 "Egress rules that does not select any pods:"; "NetworkPolicy ns/e, egress rules indexes: 2"]).
Proof.
  split; [reflexivity|]. split; [|vm_compute; reflexivity]. unfold rules_tame, tame. repeat apply conj; repeat constructor; try discriminate.
Qed.
Example ex_C79_pairs : Forall common_tame [Common "NetworkPolicy" "ns/q" "NetworkPolicy" "ns/p" ["ns/a"; "ns/b"]] /\
  in_str no_text no_diff (EPairs "overlaps" [Common "NetworkPolicy" "ns/q" "NetworkPolicy" "ns/p" ["ns/a"; "ns/b"]]) =
  Some ("overlaps:" ++ nl ++ "NetworkPolicy_1: ns/q, NetworkPolicy_2: ns/p, pods: ns/a, ns/b")%string.
Proof. split; [|vm_compute; reflexivity]. constructor; [|constructor]. unfold common_tame, one_line. cbn. repeat split; try reflexivity. repeat constructor; discriminate. Qed.
Example ex_C79_pods : Forall tame ["ns/a"; "ns/b"] /\ in_str no_text no_diff (EPods "not captured for " ["ns/a"; "ns/b"] ["ns/a"] true) =
  Some (unlines [""; "not captured for ingress:"; "ns/a, ns/b"; ""; "not captured for egress:"; "ns/a"]).
Proof. split; [repeat constructor; discriminate|vm_compute; reflexivity]. Qed.
Definition o_text (b : bool) : string := if b then "TCP 80" else "All connections".
Example ex_C79_conns : Forall (differ_tame o_text) [Differ "ns/a" "ns/b" true true; Differ "0.0.0.0/0" "ns/b" false false] /\
  in_str o_text (fun _ _ _ _ => "") (EDiff "Allowed" [Differ "ns/a" "ns/b" true true; Differ "0.0.0.0/0" "ns/b" false false] "c1" "c2" false) =
  Some (unlines ["Allowed:"; "src: ns/a, dst: ns/b, conn: TCP 80"; "src: 0.0.0.0/0, dst: ns/b, conn: All connections"]).
Proof. split; [|vm_compute; reflexivity]. repeat constructor. Qed.

Example ex_C79_peers : peers_tame ["ns/a"; "2001:db8::/32"] /\
  in_str o_text (fun _ _ _ _ => "") (EDiff "Allowed" [Differ (py_list ["ns/a"; "2001:db8::/32"]) (py_list ["ns/b"]) true true] "c1" "c2" false) =
  Some (unlines ["Allowed:"; "src: ['ns/a', '2001:db8::/32'], dst: ['ns/b'], conn: TCP 80"]).
Proof. split; [repeat constructor|vm_compute; reflexivity]. Qed.

(** ** C80 *)
Example ex_C80_emptiness : (forall p, of_layers o_g p -> plain_name p) /\
  dict_output no_text ["conf"] "empty" q_empty = Some (ODict [("query", OStr "empty"); ("configs", OList [OStr "conf"]); ("numerical_result", OInt 3);
    ("textual_result", OStr "There are empty NetworkPolicies and/or empty ingress/egress rules in conf");
    ("explanation", OList [ODict [("description", OStr "Policies that does not select any pods"); ("policies", OList [OStr "ns/none"])];
       ODict [("description", OStr "Ingress rules that does not select any pods"); ("pairs", OList [ODict [("policy", OStr "ns/e"); ("ingress_rules_indexes", OList [OStr "1"])]])];
       ODict [("description", OStr "Egress rules that does not select any pods"); ("pairs", OList [ODict [("policy", OStr "ns/none"); ("egress_rules_indexes", OList [OStr "2"])]])]])]).
Proof.
  split; [|vm_compute; reflexivity]. intros p H. apply in_layers in H. assert (L : layer_policies o_g = [empty_pol; o_empty]) by (vm_compute; reflexivity). rewrite L in H.
  destruct H as [<-|[<-|[]]]; (split; [vm_compute; discriminate|split; vm_compute; reflexivity]).
Qed.
(** Finding F131.  The list of redundant policies has names, not titles: taking the second word fails, and there is no answer in yaml or json. *)
Definition red_g : config := cfg pods [from_b; from_b2].
Lemma red_layers : lays (g_pols red_g) = [(LK8sCalico, [from_b; from_b2])].
Proof. vm_compute. reflexivity. Qed.
Lemma red_state0 : redundancy_state qA qQ no6 rid0 red_g = Red 2 ["ns/p"; "ns/p2"] [].
Proof. vm_compute. reflexivity. Qed.
Theorem C80_redundancy_refuted : plain ex_reg q_vis red_g /\ (forall n ps p, In (n, ps) (lays (g_pols red_g)) -> is_gateway_layer n = false -> In p ps -> plain_name p) /\
  redundant qA qQ no6 rid0 red_g LK8sCalico from_b = true /\
  string_output no_text no_diff true (redundancy_answer "conf" qA qQ no6 rid0 red_g) = Some (unlines ["Redundancies found in conf"; "Policies that are redundant in conf:"; "ns/p, ns/p2"]) /\
  (forall query, dict_output no_text ["conf"] query (redundancy_answer "conf" qA qQ no6 rid0 red_g) = None).
Proof.
  assert (S : forall n ps p, In (n, ps) (lays (g_pols red_g)) -> is_gateway_layer n = false -> In p ps -> plain_name p).
  { rewrite red_layers. intros n ps p [E|[]] _ H. injection E as <- <-. destruct H as [<-|[<-|[]]]; (split; [vm_compute; discriminate|split; vm_compute; reflexivity]). }
  split; [plainq|]. split; [exact S|]. split; [vm_compute; reflexivity|]. split.
  - unfold redundancy_answer. rewrite red_state0. vm_compute. reflexivity.
  - intros query. apply (C80_redundancy_dict no_text no_diff "conf" qA qQ no6 rid0 red_g ["conf"] query S). rewrite red_state0. discriminate.
Qed.
(** Finding F132.  In yaml and json the peers missing in the second configuration are not named: the explanation is the two words "description", "pods". *)
Theorem C80_missing_peers_refuted : forall (cstr : hc val -> string) configs query cmd n1 n2 missing,
  dict_output cstr configs query (missing_peers_answer cmd n1 n2 missing) =
    Some (ODict [("query", OStr query); ("configs", OList (map OStr configs)); ("numerical_result", OInt (if cmd then 1 else 0)); ("textual_result", OStr (n1 ++ " is not contained in " ++ n2 ++ " ")%string);
                 ("explanation", OList [OStr "description"; OStr "pods"])]) /\
  string_output cstr no_diff true (missing_peers_answer cmd n1 n2 missing) =
    Some (unlines [(n1 ++ " is not contained in " ++ n2 ++ " ")%string; ""; ("Peers in " ++ n1 ++ " which are not in " ++ n2 ++ ":")%string; join ", " missing]).
Proof.
  intros cstr configs query cmd n1 n2 missing.
  assert (N : String.eqb (n1 ++ " is not contained in " ++ n2 ++ " ")%string "" = false) by (destruct n1; reflexivity).
  unfold dict_output, string_output, missing_peers_answer. cbn [qa_skip qa_expl qa_result qa_num nonempty]. rewrite N. split; [reflexivity|].
  cbn [mapM in_str negb bind fold_left andb unlines fold_right]. f_equal. unfold pods_str. rewrite !TextFacts.app_nil_s, !TextFacts.app_assoc_s. reflexivity.
Qed.
Lemma second_word : forall a b n, solid a -> solid b -> name_of_title (a ++ String " " (b ++ String " " n)) = Some b.
Proof.
  intros a b n [Na Sa] [Nb Sb]. unfold name_of_title, words. rewrite !split_if_app by auto. cbn [filter]. destruct (String.eqb_spec a ""); [congruence|]. destruct (String.eqb_spec b ""); [congruence|]. reflexivity.
Qed.
(** Finding F133.  Ingress resources and gateways are named by the second word of their type. *)
Theorem C80_gateway_names_refuted : (forall p : @PolicyModel.policy (hc val), p_kind p = TIngress -> name_of_title (title p) = Some "resource") /\
  (forall p : @PolicyModel.policy (hc val), p_kind p = TGatewayPolicy -> name_of_title (title p) = Some "Gateway/VirtualService") /\
  (let g := cfg pods [Policy "i" "ns" TIngress true false [] [] [] None Allow] in
   in_dict no_text (ERules " that does not select any pods" (map title (layer_policies g)) [] []) =
     Some [ODict [("description", OStr "Policies that does not select any pods"); ("policies", OList [OStr "resource"])]] /\
   qa_expl (emptiness_answer "conf" keep g) = [ERules " that does not select any pods" (map title (layer_policies g)) [] []] /\ map title (layer_policies g) = ["Ingress resource ns/i"]).
Proof.
  split; [|split].
  - intros p K. unfold title, type_str. rewrite K. apply (second_word "Ingress" "resource"); repeat split; discriminate.
  - intros p K. unfold title, type_str. rewrite K. apply (second_word "Istio" "Gateway/VirtualService" ("resource " ++ full_name p)); repeat split; discriminate.
  - cbv zeta. repeat apply conj; vm_compute; reflexivity.
Qed.
Print Assumptions C78_emptiness_counts.
Print Assumptions C78_disjointness_counts.
Print Assumptions C78_captured_counts.
Print Assumptions C78_same_name_refuted.
Print Assumptions C79_rules_text.
Print Assumptions C79_pairs_text.
Print Assumptions C79_pods_text.
Print Assumptions C79_conns_text.
Print Assumptions C79_conns_peers.
Print Assumptions C80_emptiness_dict.
Print Assumptions C80_redundancy_dict.
Print Assumptions C80_redundancy_refuted.
Print Assumptions C80_missing_peers_refuted.
Print Assumptions C80_gateway_names_refuted.

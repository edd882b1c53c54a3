(** * The answers of queries as texts and as yaml/json values.

    Models nca/NetworkConfig/QueryOutputHandler.py and the answers of DisjointnessQuery, EmptinessQuery, RedundancyQuery, AllCapturedQuery and (for
    missing peers) ContainmentQuery with their explanations (nca/NetworkConfig/NetworkConfigQuery.py).  Exceptions are [None].  The dumping of
    dictionaries by the json and yaml libraries is not modelled: the output is the dictionary.  Characters are 8 bit. *)
From Coq Require Import ZArith List Bool Arith String Ascii.
From Verif Require Import IntervalModel TextModel PortProtoModel ConnTextModel GraphModel PeerModel PolicyModel QueryModel YamlModel ExplModel.
Import ListNotations.
Local Open Scope string_scope.
Local Open Scope list_scope.
Local Open Scope nat_scope.

(** The values of output dictionaries, in the order of insertion. *)
Inductive ov := OStr (s : string) | OInt (z : Z) | OList (l : list ov) | ODict (d : list (string * ov)).
Definition nl : string := String newline "".
(** Python [s.split()]: maximal runs of characters that are not white space. *)
Definition is_space (a : ascii) : bool :=
  let n := nat_of_ascii a in ((9 <=? n) && (n <=? 13)) || ((28 <=? n) && (n <=? 32)) || (n =? 133) || (n =? 160).
Fixpoint split_if (f : ascii -> bool) (s : string) : list string :=
  match s with
  | EmptyString => [""]
  | String a t => if f a then "" :: split_if f t else match split_if f t with x :: r => String a x :: r | [] => [String a ""] end
  end.
Definition words (s : string) : list string := filter (fun w => negb (String.eqb w "")) (split_if is_space s).

Section Out.
(** Connection sets: str(conns) and print_diff (ConnectivityProperties.py:111-141, 188-209) are parameters. *)
Context {C : Type} (cstr : C -> string) (cdiff : C -> C -> string -> string -> string).
(** PoliciesWithCommonPods, QueryOutputHandler.py:48-64. *)
Record common := Common { co_type1 : string; co_name1 : string; co_type2 : string; co_name2 : string; co_pods : list string }.
(** PeersAndConnectivityProperties, lines 229-244. *)
Record differ := Differ { di_src : string; di_dst : string; di_conns1 : C; di_conns2 : C }.
(** The explanations: IntersectPodsExplanation (67-96), PoliciesAndRulesExplanations (99-178), PodsListsExplanations (181-226),
    ConnectionsDiffExplanation (247-296), ComputedExplanation (299-310). *)
Inductive expl :=
| EPairs (desc : string) (l : list common)
| ERules (desc : string) (pols : list string) (ing eg : list (string * list nat))
| EPods (desc : string) (pods egress_pods : list string) (suffix : bool)
| EDiff (desc : string) (l : list differ) (name1 name2 : string) (both : bool)
| EComputed (text : option string) (dict : list (string * ov)).

(** ** Texts *)
(** Lines 88-95. *)
Definition common_str (r : common) : string :=
  (co_type1 r ++ "_1: " ++ co_name1 r ++ ", " ++ co_type2 r ++ "_2: " ++ co_name2 r ++ ", pods: " ++ join ", " (co_pods r))%string.
(** _get_xgress_description, lines 113-114. *)
Definition direction (ing : bool) : string := if ing then "ingress" else "egress".
Definition xgress_description (desc : string) (ing : bool) : string := ((if ing then "Ingress" else "Egress") ++ " rules" ++ desc)%string.
(** _add_rules_to_str_explanation, lines 151-163. *)
Definition rules_line (ing : bool) (e : string * list nat) : string :=
  (fst e ++ ", " ++ direction ing ++ " rules indexes: " ++ join ", " (map str_nat (snd e)))%string.
Definition rules_str (desc : string) (ing : bool) (d : list (string * list nat)) : string :=
  fold_left (fun r e => (r ++ rules_line ing e ++ nl)%string) d (nl ++ xgress_description desc ing ++ ":" ++ nl)%string.
(** _add_pods_list_to_str_explanation, lines 212-213. *)
Definition pods_str (desc suffix : string) (l : list string) : string := (nl ++ (desc ++ suffix) ++ ":" ++ nl ++ join ", " l ++ nl)%string.
(** Lines 286-295. *)
Definition differ_str (both : bool) (n1 n2 : string) (r : differ) : string :=
  if both then ("src: " ++ di_src r ++ ", dst: " ++ di_dst r ++ ", description: " ++ cdiff (di_conns1 r) (di_conns2 r) n1 n2)%string
  else ("src: " ++ di_src r ++ ", dst: " ++ di_dst r ++ ", conn: " ++ cstr (di_conns1 r))%string.
(** The names of the peers of a difference with fullExplanation: [str(sorted(names))], NetworkConfigQuery.py:1003-1004 (names without quotes and backslashes:
    [repr] of a name is the name in single quotes). *)
Definition py_list (l : list string) : string := ("[" ++ join ", " (map (fun n => "'" ++ n ++ "'")%string l) ++ "]")%string.
Definition nonempty {X} (l : list X) : bool := match l with [] => false | _ => true end.
(** get_explanation_in_str of the five classes; [None] is a concatenation with None. *)
Definition in_str (e : expl) : option string :=
  match e with
  | EPairs desc l => Some (desc ++ (":" ++ nl) ++ join nl (map common_str l))%string
  | ERules desc pols ing eg =>
    Some ((if nonempty pols then ("Policies" ++ desc) ++ (":" ++ nl) ++ join ", " pols ++ nl else "")
          ++ (if nonempty ing then rules_str desc true ing else "") ++ (if nonempty eg then rules_str desc false eg else ""))%string
  | EPods desc pods egress_pods suffix =>
    if negb suffix then Some (pods_str desc "" pods)
    else Some ((if nonempty pods then pods_str desc "ingress" pods else "") ++ (if nonempty egress_pods then pods_str desc "egress" egress_pods else ""))%string
  | EDiff desc l n1 n2 both => Some (desc ++ (":" ++ nl) ++ join nl (map (differ_str both n1 n2) l) ++ nl)%string
  | EComputed text _ => text
  end.

(** ** Dictionaries *)
(** _get_policy_name_from_title, lines 116-124; [None] is an IndexError. *)
Definition name_of_title (title : string) : option string := nth_error (words title) 1.
(** _add_rules_to_dict_explanation, lines 126-137. *)
Definition rules_dict (desc : string) (ing : bool) (d : list (string * list nat)) : option ov :=
  bind (mapM (fun e : string * list nat => bind (name_of_title (fst e)) (fun n =>
          Some (ODict [("policy", OStr n); ((direction ing ++ "_rules_indexes")%string, OList (map (fun i => OStr (str_nat i)) (snd e)))]))) d) (fun rules =>
    Some (ODict [("description", OStr (xgress_description desc ing)); ("pairs", OList rules)])).
Definition pods_dict (desc suffix : string) (l : list string) : list (string * ov) :=
  [("description", OStr (desc ++ suffix)%string); ("pods", OList (map OStr l))].
(** get_explanation_in_dict of the five classes.  Line 203: [list] of a dictionary is the list of its keys. *)
Definition in_dict (e : expl) : option (list ov) :=
  match e with
  | EPairs desc l =>
    Some [ODict [("description", OStr desc);
                 ("examples", OList (map (fun r => ODict [("policies", OList [OStr (co_name1 r); OStr (co_name2 r)]); ("pods", OList (map OStr (co_pods r)))]) l))]]
  | ERules desc pols ing eg =>
    bind (if nonempty pols then bind (mapM name_of_title pols) (fun names =>
            Some [ODict [("description", OStr ("Policies" ++ desc)%string); ("policies", OList (map OStr names))]]) else Some []) (fun a =>
    bind (if nonempty ing then bind (rules_dict desc true ing) (fun d => Some [d]) else Some []) (fun b =>
    bind (if nonempty eg then bind (rules_dict desc false eg) (fun d => Some [d]) else Some []) (fun c => Some (a ++ b ++ c))))
  | EPods desc pods egress_pods suffix =>
    if negb suffix then Some (map (fun kv => OStr (fst kv)) (pods_dict desc "" pods))
    else Some ((if nonempty pods then [ODict (pods_dict desc "ingress" pods)] else []) ++ (if nonempty egress_pods then [ODict (pods_dict desc "egress" egress_pods)] else []))
  | EDiff desc l n1 n2 both =>
    Some [ODict [("description", OStr desc);
                 ("connections", OList (map (fun r => ODict ([("src", OStr (di_src r)); ("dst", OStr (di_dst r))] ++
                    (if both then [("conns_config1", OStr (cstr (di_conns1 r))); ("conns_config2", OStr (cstr (di_conns2 r)))] else [("conn", OStr (cstr (di_conns1 r)))]))) l))]]
  | EComputed _ dict => Some [ODict dict]
  end.

(** ** Answers *)
(** QueryAnswer, lines 313-321. *)
Record qanswer := QAnswer { qa_bool : bool; qa_result : string; qa_expl : list expl; qa_num : Z; qa_skip : bool }.
(** StringOutputHandler.compute_query_output, lines 359-375. *)
Definition string_output (is_txt : bool) (q : qanswer) : option string :=
  bind (mapM in_str (qa_expl q)) (fun l =>
    Some (fold_left (fun r x => (r ++ x)%string) l (if is_txt && negb (String.eqb (qa_result q) "") then (qa_result q ++ nl)%string else "")%string)).
(** DictOutputHandler.compute_query_output, lines 331-351. *)
Definition dict_output (configs : list string) (query : string) (q : qanswer) : option ov :=
  let head := [("query", OStr query); ("configs", OList (map OStr configs))] in
  if qa_skip q then Some (ODict (head ++ [("executed", OInt 0); ("description", OStr (qa_result q))]))
  else
    let body := head ++ [("numerical_result", OInt (qa_num q))] ++ (if String.eqb (qa_result q) "" then [] else [("textual_result", OStr (qa_result q))]) in
    if nonempty (qa_expl q) then bind (mapM in_dict (qa_expl q)) (fun l => Some (ODict (body ++ [("explanation", OList (List.concat l))]))) else Some (ODict body).

(** ** Queries *)
(** policy_type_str, NetworkPolicy.py:331-337, and policy_title, NetworkConfigQuery.py:51-58. *)
Definition type_str (p : @policy C) : string :=
  match p_kind p with TIngress => "Ingress resource" | TGatewayPolicy => "Istio Gateway/VirtualService resource" | _ => "NetworkPolicy" end.
Definition title (p : @policy C) : string := (type_str p ++ " " ++ full_name p)%string.
(** The name of the configuration, [sorted] on policies (only that it permutes them is used: policies without order are not compared), [sorted] on the
    records of common pods, and the names of the peers written for an overlap (all, or a representative). *)
Context (name : string) (order : list (@policy C) -> list (@policy C)) (order_common : list common -> list common) (pod_names : peerset -> list string).
(** The dictionary of policies with such rules, [dict.update] one after the other. *)
Definition rule_lists (f : @policy C -> list nat) (pols : list (@policy C)) : list (string * list nat) :=
  fold_left (fun d p => if nonempty (f p) then dput d (title p) (f p) else d) pols [].
(** EmptinessQuery.exec, NetworkConfigQuery.py:249-283. *)
Definition emptiness_answer (g : @config C) : qanswer :=
  let pols := order (layer_policies g) in
  let res := fold_left (fun n p => n + (if pbool (p_selected p) then 0 else 1) + List.length (empty_rules p true) + List.length (empty_rules p false)) pols 0 in
  if res =? 0 then QAnswer false ("No empty NetworkPolicies and no empty rules in " ++ name)%string [] 0 false
  else QAnswer (0 <? res) ("There are empty NetworkPolicies and/or empty ingress/egress rules in " ++ name)%string
    [ERules " that does not select any pods" (map title (filter (fun p => negb (pbool (p_selected p))) pols))
            (rule_lists (fun p => empty_rules p true) pols) (rule_lists (fun p => empty_rules p false) pols)] (Z.of_nat res) false.
(** DisjointnessQuery.exec, lines 211-241. *)
Definition disjointness_answer (A : cops C) (rid : @rule C -> @rule C -> bool) (g : @config C) : qanswer :=
  let l := map (fun pq : @policy C * @policy C => Common (type_str (fst pq)) (full_name (fst pq)) (type_str (snd pq)) (full_name (snd pq)) (pod_names (pinter (p_selected (fst pq)) (p_selected (snd pq)))))
               (overlaps A rid g) in
  if nonempty l then QAnswer false ("There are policies capturing the same pods in " ++ name)%string [EPairs "policies with overlapping captured pods" (order_common l)] (Z.of_nat (List.length l)) false
  else QAnswer true ("All policies are disjoint in " ++ name)%string [] 0 false.
(** RedundancyQuery.exec, lines 371-405, on the state of [QueryModel.redundancy_state]; the policies of a layer are taken in the order of the layer. *)
Definition redundancy_answer (A : cops C) (Q : qops C) (h6 : @policy C -> bool) (rid : @rule C -> @rule C -> bool) (g : @config C) : qanswer :=
  let st := redundancy_state A Q h6 rid g in
  let lists (f : @policy C * list nat * list nat -> list nat) := fold_left (fun d r => if nonempty (f r) then dput d (title (fst (fst r))) (f r) else d) (red_rules st) [] in
  if 0 <? red_count st then
    QAnswer true ("Redundancies found in " ++ name)%string
      [ERules (" that are redundant in " ++ name)%string (sorted_set (red_listed st)) (lists (fun r => snd (fst r))) (lists snd)] (Z.of_nat (red_count st)) false
  else QAnswer false ("No redundancy found in " ++ name)%string [] 0 false.
(** AllCapturedQuery: _compute_uncaptured_pods_by_layer, lines 1711-1741, and exec, 1743-1767. *)
Definition uncaptured_expl (pod_name : peer -> string) (g : @config C) (n : lname) (layer : string) (ingress_only : bool) : list expl :=
  match lget (lays (g_pols g)) n with
  | None => []
  | Some pols =>
    let i := uncaptured pod_name g pols true in
    let e := if ingress_only then [] else uncaptured pod_name g pols false in
    if List.length i + List.length e =? 0 then []
    else [EPods ("workload resources that are not captured by any " ++ layer ++ " policy that affects ")%string (sorted_set i) (sorted_set e) true]
  end.
Definition all_captured_answer (pod_name : peer -> string) (g : @config C) : qanswer :=
  if negb (has_policies g) || only_gateway_layers (lays (g_pols g)) then
    QAnswer false ("There are no network policies in " ++ name ++ ". All workload resources are non captured")%string [] (Z.of_nat (List.length (peers_group (g_peers g) false false))) false
  else
    let k := uncaptured_by_layer pod_name g LK8sCalico false in
    let i := uncaptured_by_layer pod_name g LIstio true in
    if (k =? 0) && (i =? 0) then QAnswer true ("All pods are captured by at least one policy in " ++ name)%string [] 0 false
    else QAnswer false ("There are workload resources not captured by any policy in " ++ name)%string
           (uncaptured_expl pod_name g LK8sCalico "K8s_Calico" false ++ uncaptured_expl pod_name g LIstio "Istio" true) (Z.of_nat (k + i)) false.
(** ContainmentQuery.exec, lines 1432-1443: peers of the first configuration that the second does not have. *)
Definition missing_peers_answer (cmd : bool) (name1 name2 : string) (missing : list string) : qanswer :=
  QAnswer false (name1 ++ " is not contained in " ++ name2 ++ " ")%string [EPods ("Peers in " ++ name1 ++ " which are not in " ++ name2)%string missing [] false] (if cmd then 1 else 0) false.
End Out.
Arguments EPairs {C}. Arguments ERules {C}. Arguments EPods {C}. Arguments EDiff {C}. Arguments EComputed {C}. Arguments Differ {C}. Arguments di_src {C}. Arguments di_dst {C}. Arguments di_conns1 {C}. Arguments di_conns2 {C}.
Arguments qa_bool {C}. Arguments qa_result {C}. Arguments qa_expl {C}. Arguments qa_num {C}. Arguments qa_skip {C}. Arguments QAnswer {C}.

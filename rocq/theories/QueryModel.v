(** * Model of the queries of nca/NetworkConfig/NetworkConfigQuery.py (without connectivity map and sanity).

    Answers are modelled without their texts: [a_bool] is bool_result, [a_num] numerical_result, [a_skip]
    query_not_executed, [a_expl] the connection sets whose cubes are listed in the explanation (all of them if
    fullExplanation is set, else the first cube of each).  QueryAnswer's defaults: QueryOutputHandler.py:313-321.

    The parameter [h6] stands for policy.has_ipv6_addresses, [rid] for the identity of rule objects (IstioSidecarRule
    has no __eq__), [pod_name] for AllCapturedQuery._get_pod_name.

    Not modelled: the output formats, the explanation tracker; the flag default_sidecar of sidecars is not compared. *)
From Coq Require Import ZArith List Bool Arith String Ascii.
From Verif Require Import IntervalModel PortProtoModel PeerModel PolicyModel OrderFacts.
Import ListNotations.
Local Open Scope string_scope.
Local Open Scope list_scope.
Local Open Scope nat_scope.

(** The further operations on ConnectivityProperties used by queries: make_all_props (ConnectivityProperties.py:356-360) and
    get_all_peers (ConnectivityProperties.py:369-374). *)
Record qops (C : Type) := QOps { q_all : C; q_peers : C -> peerset }.
Arguments QOps {C}. Arguments q_all {C}. Arguments q_peers {C}.

Section Queries.
Context {C : Type} (A : cops C) (Q : qops C) (h6 : @policy C -> bool) (rid : @rule C -> @rule C -> bool)
        (pod_name : peer -> string).
Local Notation policy := (@policy C).
Local Notation rule := (@rule C).

(** NetworkConfig.py:44-60: the peers and services (full names; K8sService.__eq__ compares name and namespace) of the
    peer container, and the policies container. *)
Record config := Config { g_peers : peerset; g_services : list string; g_pols : @pcont C }.

Record answer := Answer { a_bool : bool; a_num : Z; a_skip : bool; a_expl : list C }.
Definition bz (b : bool) : Z := if b then 1%Z else 0%Z.

(** ** Equality of policies *)
Definition peq (s t : peerset) : bool := match ps_equal s t with Some b => b | None => false end.
(** Rule equality: K8sNetworkPolicy.py:24-25, CalicoNetworkPolicy.py:39-40, IstioNetworkPolicy.py:27-28,
    GatewayPolicy.py:26-27; sidecar rules are compared by identity. *)
Definition rule_eqb (c : pclass) (r s : rule) : bool :=
  match c with
  | CSidecar => rid r s
  | CCalico => c_eqb A (r_props r) (r_props s) && action_eqb (r_action r) (r_action s)
  | _ => c_eqb A (r_props r) (r_props s)
  end.
(** list.__eq__ *)
Fixpoint list_eqb {X} (f : X -> X -> bool) (l m : list X) : bool :=
  match l, m with
  | [], [] => true
  | x :: l, y :: m => f x y && list_eqb f l m
  | _, _ => false
  end.
Definition trip_eqb (t u : trip (C := C)) : bool :=
  match t, u with (a, b, c), (a', b', c') => c_eqb A a a' && c_eqb A b b' && c_eqb A c c' end.
Definition ord_eqb (a b : option Z) : bool :=
  match a, b with Some x, Some y => (x =? y)%Z | None, None => true | _, _ => false end.
(** __eq__: NetworkPolicy.py:118-136; CalicoNetworkPolicy.py:77-79, IstioNetworkPolicy.py:59-60, IstioSidecar.py:50-51,
    GatewayPolicy.py:75-76.  The kind is not compared. *)
Definition policy_eqb (p q : policy) : bool :=
  let c := class_of (p_kind p) in
  pclass_eqb c (class_of (p_kind q)) &&
  (String.eqb (p_name p) (p_name q) && String.eqb (p_ns p) (p_ns q) &&
   Bool.eqb (p_affects_eg p) (p_affects_eg q) && Bool.eqb (p_affects_in p) (p_affects_in q) &&
   peq (p_selected p) (p_selected q) &&
   list_eqb (rule_eqb c) (p_ingress p) (p_ingress q) && list_eqb (rule_eqb c) (p_egress p) (p_egress q) &&
   trip_eqb (sync_props A p true) (sync_props A q true) && trip_eqb (sync_props A p false) (sync_props A q false)) &&
  match c with
  | CCalico => ord_eqb (p_ord p) (p_ord q)
  | CIstioAP | CGateway => action_eqb (p_action p) (p_action q)
  | _ => true
  end.
(** dict.__eq__ of the policies maps: same number of items, and every item of the first is found in the second.  The
    insertion order does not matter. *)
Definition pdict := list ((string * ptype) * policy).
Definition pfind (m : pdict) (k : string * ptype) : option policy :=
  match find (fun e => key_eqb (fst e) k) m with Some e => Some (snd e) | None => None end.
Definition pdict_eqb (m n : pdict) : bool :=
  (List.length m =? List.length n) &&
  forallb (fun e => match pfind n (fst e) with Some q => policy_eqb (snd e) q | None => false end) m.

(** ** Clones of a configuration *)
(** clone_without_policies, NetworkConfig.py:102-110. *)
Definition no_policies (g : config) : config := Config (g_peers g) (g_services g) pcont_init.
Definition with_policies (g : config) (ps : list policy) : config :=
  Config (g_peers g) (g_services g) (add_all pcont_init ps).
Definition policy_list (g : config) : list policy := map snd (policies (g_pols g)).
(** clone_without_policy, NetworkConfig.py:112-122.  The appends do not raise (PropQueries.v, clones_lose_nothing). *)
Definition without_policy (g : config) (p : policy) : config :=
  with_policies g (filter (fun q => negb (policy_eqb q p)) (policy_list g)).
(** clone_without_gateway_layers, NetworkConfigQuery.py:1011-1029. *)
Definition nonempty_layer (g : config) (n : lname) : bool :=
  match lget (lays (g_pols g)) n with Some (_ :: _) => true | _ => false end.
Definition is_gateway_policy (p : policy) : bool := pclass_eqb (class_of (p_kind p)) CGateway.
Definition without_gateways (g : config) : config :=
  if nonempty_layer g LK8sGateway || nonempty_layer g LIstioGateway then
    with_policies g (filter (fun p => negb (is_gateway_policy p)) (policy_list g))
  else g.
(** find_policy, NetworkConfig.py:83-100, without a required type.  PolicyType is enumerated in its order of definition. *)
Definition all_types : list ptype :=
  [TUnknown; TK8s; TCalico; TCalicoGlobal; TCalicoProfile; TIstioAP; TSidecar; TIngress; TGateway; TVirtualService; TGatewayPolicy; TList].
Fixpoint has_double_slash (s : string) : bool :=
  match s with
  | EmptyString => false
  | String c t => (Ascii.eqb c "/"%char && match t with String c' _ => Ascii.eqb c' "/"%char | _ => false end) || has_double_slash t
  end.
Definition find_policy (g : config) (n : string) : list policy :=
  let res := flat_map (fun t => match pfind (policies (g_pols g)) (n, t) with Some p => [p] | None => [] end) all_types in
  match res with
  | [] => if has_double_slash n then [] else filter (fun p => String.eqb n (p_name p)) (policy_list g)
  | _ => res
  end.
(** clone_with_just_one_policy, NetworkConfig.py:124-140 ([None]: an exception). *)
Definition just_one (g : config) (n : string) : option config :=
  match find_policy g n with [p] => Some (with_policies g [p]) | _ => None end.

(** ** Two configurations *)
(** is_comparable_with_other_container, PeerContainer.py:40-46. *)
Definition same_services (l m : list string) : bool :=
  forallb (fun s => existsb (String.eqb s) m) l && forallb (fun s => existsb (String.eqb s) l) m.
Definition comparable (g1 g2 : config) : bool :=
  peq (g_peers g1) (g_peers g2) && same_services (g_services g1) (g_services g2).
(** is_identical_topologies, NetworkConfigQuery.py:955-962: not comparable / same policies / neither. *)
Inductive topology := NotComparable | SamePolicies | Comparable.
Definition identical (g1 g2 : config) (check : bool) : topology :=
  if negb (comparable g1 g2) then NotComparable
  else if check && pdict_eqb (policies (g_pols g1)) (policies (g_pols g2)) then SamePolicies
  else Comparable.

(** check_for_excluding_ipv6_addresses, NetworkConfig.py:178-194. *)
Definition excludes6 (flag : bool) (g : config) : bool := flag && forallb (fun p => negb (h6 p)) (policy_list g).
Definition excl (flag : bool) (g1 g2 : config) : bool := excludes6 flag g1 && excludes6 flag g2.
Definition ips4 : iset := match get_all_ips_block true false with Some l => l | None => [] end.
Definition ips_mask (ex6 : bool) : iset := if ex6 then ips4 else all_ips.
Definition mask_peers (s : peerset) : peerset := match ps_filter_mask s ips4 with Some r => r | None => s end.
(** filter_conns_by_input_or_internal_constraints, NetworkConfigQuery.py:964-984. *)
Definition conns_filter (ex6 : bool) (x1 x2 : C) : C :=
  let m := mask_peers (ps_union (q_peers Q x1) (q_peers Q x2)) in
  if ex6 then c_rect A (Some m) (Some m) None else q_all Q.
Definition filter_conns (ex6 : bool) (g1 g2 : config) (x1 x2 : C) : C * C :=
  let f := conns_filter ex6 x1 x2 in
  (c_and A (filter_by_peer_types A (g_peers g1) x1) f, c_and A (filter_by_peer_types A (g_peers g2) x2) f).

Definition conns_of (g : config) (f : cfilter) : pconns := config_conns A (g_peers g) (lays (g_pols g)) f.
Definition layer_conns_of (g : config) (n : lname) (f : cfilter) : pconns :=
  config_layer_conns A (g_peers g) (lays (g_pols g)) n f.
Definition all_conns_of (g : config) (on : option lname) : C :=
  all_allowed (match on with None => conns_of g only_all_allowed | Some n => layer_conns_of g n only_all_allowed end).

(** EquivalenceQuery.exec and check_equivalence, NetworkConfigQuery.py:1048-1072; [on] is layer_name. *)
Definition check_equivalence (flag : bool) (g1 g2 : config) (on : option lname) : answer :=
  match filter_conns (excl flag g1 g2) g1 g2 (all_conns_of g1 on) (all_conns_of g2 on) with
  | (x1, x2) => if c_eqb A x1 x2 then Answer true 0 false []
                else Answer false 1 false [c_sub A x1 x2; c_sub A x2 x1]
  end.
Definition equivalence (flag : bool) (g1 g2 : config) (on : option lname) : answer :=
  match identical g1 g2 true with
  | NotComparable => Answer false 1 true []
  | SamePolicies => Answer true 0 false []
  | Comparable => check_equivalence flag g1 g2 on
  end.

(** ContainmentQuery, NetworkConfigQuery.py:1432-1463; [cmd] is cmd_line_flag, [capt] only_captured. *)
Definition containment (flag cmd capt : bool) (g1 g2 : config) : answer :=
  if pbool (psub (peers_group (g_peers g1) false true) (peers_group (g_peers g2) false true)) then
    Answer false (bz cmd) false []
  else
    let y1 := if capt then allowed (conns_of g1 only_allowed) else all_allowed (conns_of g1 only_all_allowed) in
    let y2 := all_allowed (conns_of g2 only_all_allowed) in
    match filter_conns (excl flag g1 g2) g1 g2 y1 y2 with
    | (x1, x2) => if c_cont A x1 x2 then Answer true (bz (negb cmd)) false []
                  else Answer false (bz cmd) false [c_sub A x1 x2]
    end.
(** The explanation of a containment answer is non-empty exactly if the answer is negative. *)
Definition explained (a : answer) : bool := negb (a_bool a).

(** TwoWayContainmentQuery.exec, NetworkConfigQuery.py:1484-1517. *)
Definition two_way (flag cmd : bool) (g1 g2 : config) : answer :=
  match identical g1 g2 true with
  | SamePolicies => Answer true 0 false []
  | _ =>
    let a12 := containment flag cmd false g1 g2 in
    let a21 := containment flag cmd false g2 g1 in
    match a_bool a12, a_bool a21 with
    | true, true => Answer true (if cmd then 0 else 3)%Z false []
    | false, false => Answer false (if cmd then 1 else 0)%Z false (a_expl a21 ++ a_expl a12)
    | true, false => Answer false (if cmd then 1 else 2)%Z false (a_expl a21)
    | false, true => Answer false 1 false (a_expl a12)
    end
  end.

(** does_contain_only_gateway_layers, NetworkLayer.py:86-91. *)
Definition is_gateway_layer (n : lname) : bool := lname_eqb n LK8sGateway || lname_eqb n LIstioGateway.
Definition only_gateway_layers (ls : layers (C := C)) : bool :=
  match ls with [] => false | _ => forallb (fun l => is_gateway_layer (fst l)) ls end.
(** NetworkConfig.__bool__, NetworkConfig.py:71-72. *)
Definition has_policies (g : config) : bool := match policies (g_pols g) with [] => false | _ => true end.

(** PermitsQuery.exec, NetworkConfigQuery.py:1525-1552. *)
Definition permits (flag cmd : bool) (g1 g2 : config) : answer :=
  if negb (has_policies g1) then Answer false 0 true []
  else match identical g1 g2 false with
  | NotComparable => Answer false (bz cmd) true []
  | _ =>
    if only_gateway_layers (lays (g_pols g1)) then Answer false 0 true []
    else let a := containment flag cmd true (without_gateways g1) g2 in
         if cmd then a else Answer (a_bool a) (bz (explained a)) (a_skip a) (a_expl a)
  end.
(** InterferesQuery, NetworkConfigQuery.py:1560-1592. *)
Definition interferes (flag cmd : bool) (g1 g2 : config) : answer :=
  match identical g1 g2 false with
  | NotComparable => Answer false (bz cmd) true []
  | _ =>
    match filter_conns (excl flag g1 g2) g1 g2 (allowed (conns_of g1 only_allowed)) (allowed (conns_of g2 only_allowed)) with
    | (x1, x2) => if c_cont A x1 x2 then Answer false (bz cmd) false []
                  else Answer true (bz (negb cmd)) false [c_sub A x1 x2]
    end
  end.
(** IntersectsQuery, NetworkConfigQuery.py:1617-1647, with only_captured=True (its only use). *)
Definition intersects (flag : bool) (g1 g2 : config) : answer :=
  match identical g1 g2 false with
  | NotComparable => Answer false 0 true []
  | _ =>
    match filter_conns (excl flag g1 g2) g1 g2 (allowed (conns_of g1 only_allowed)) (all_allowed (conns_of g2 only_all_allowed)) with
    | (x1, x2) => let both := c_and A x1 x2 in
                  if c_bool A both then Answer true 0 false [both] else Answer false 1 false []
    end
  end.
(** ForbidsQuery.exec, NetworkConfigQuery.py:1655-1677. *)
Definition forbids (flag : bool) (g1 g2 : config) : answer :=
  if negb (has_policies g1) then Answer false 0 true []
  else if only_gateway_layers (lays (g_pols g1)) then Answer false 0 true []
  else let a := intersects flag (without_gateways g1) g2 in
       Answer (a_bool a) (bz (a_bool a)) (a_skip a) (a_expl a).

(** StrongEquivalenceQuery.exec, NetworkConfigQuery.py:1393-1424 ([None]: an exception).  The names compared are
    "name[type]"; the model compares the keys of the maps. *)
Definition keys_sub (m n : pdict) : bool := forallb (fun e => existsb (fun e' => key_eqb (fst e) (fst e')) n) m.
Fixpoint strong_loop (flag : bool) (g1 g2 : config) (ps : list policy) : option answer :=
  match ps with
  | [] => Some (Answer true 0 false [])
  | p :: ps =>
    match just_one g1 (full_name p), just_one g2 (full_name p) with
    | Some s1, Some s2 => let a := equivalence flag s1 s2 None in
                          if a_bool a then strong_loop flag g1 g2 ps else Some (Answer false 1 false (a_expl a))
    | _, _ => None
    end
  end.
Definition strong_equivalence (flag : bool) (g1 g2 : config) : option answer :=
  match identical g1 g2 true with
  | NotComparable => Some (Answer false 1 true [])
  | SamePolicies => Some (Answer true 0 false [])
  | Comparable =>
    if negb (keys_sub (policies (g_pols g1)) (policies (g_pols g2))) then Some (Answer false 1 false [])
    else if negb (keys_sub (policies (g_pols g2)) (policies (g_pols g1))) then Some (Answer false 1 false [])
    else strong_loop flag g1 g2 (policy_list g1)
  end.

(** ** SemanticDiffQuery *)
(** get_auto_conns / props_without_auto_conns, ConnectivityProperties.py:376-412. *)
Definition auto_of (x : C) : C :=
  fold_left (fun acc p => c_or A acc (c_rect A (Some [p]) (Some [p]) None)) (q_peers Q x) (c_empty A).
Definition no_auto (x : C) : C := c_sub A x (auto_of x).
(** get_captured_pods, NetworkConfig.py:142-160, for all layers. *)
Definition captured_pods (g : config) : peerset := fold_left (fun r p => ps_union r (p_selected p)) (policy_list g) [].
Definition both_ways (s t : peerset) : C := c_or A (c_rect A (Some s) (Some t) None) (c_rect A (Some t) (Some s) None).
Inductive category := Lost11 | Lost12 | Lost21 | Chg31 | Chg32 | New41 | New51 | New52.
Definition categories : list category := [Lost11; Lost12; Lost21; Chg31; Chg32; New41; New51; New52].
(** compute_diff, NetworkConfigQuery.py:1214-1362: the removed and the added connections of every category. *)
Definition sem_diff (flag : bool) (g1 g2 : config) (k : category) : option C * option C :=
  let old_peers := peers_group (g_peers g1) false true in
  let new_peers := peers_group (g_peers g2) false true in
  let inter := pinter old_peers new_peers in
  let removed := psub old_peers inter in
  let added := psub new_peers inter in
  let capt := pinter (ps_union (captured_pods g1) (captured_pods g2)) inter in
  let ex6 := excl flag g1 g2 in
  let ips := [Block (ips_mask ex6)] in
  match filter_conns ex6 g1 g2 (all_allowed (conns_of g1 only_all_allowed)) (all_allowed (conns_of g2 only_all_allowed)) with
  | (old, new) =>
    let lost := c_sub A old new in
    let gained := c_sub A new old in
    match k with
    | Lost11 => (Some (no_auto (c_and A (c_rect A (Some removed) (Some removed) None) old)), None)
    | Lost12 => (Some (c_and A (both_ways removed ips) old), None)
    | Lost21 => (Some (no_auto (c_and A (both_ways removed inter) old)), None)
    | Chg31 => let p := both_ways capt inter in (Some (no_auto (c_and A lost p)), Some (no_auto (c_and A gained p)))
    | Chg32 => let p := both_ways capt ips in (Some (c_and A lost p), Some (c_and A gained p))
    | New41 => (None, Some (no_auto (c_and A (both_ways inter added) new)))
    | New51 => (None, Some (no_auto (c_and A (c_rect A (Some added) (Some added) None) new)))
    | New52 => (None, Some (c_and A (both_ways added ips) new))
    end
  end.
Definition reported (o : option C) : bool := match o with Some x => c_bool A x | None => false end.
(** get_results_for_computed_fw_rules, NetworkConfigQuery.py:1158-1187: the number of non-empty sets. *)
Definition diff_count (flag : bool) (g1 g2 : config) : nat :=
  fold_left (fun n k => match sem_diff flag g1 g2 k with (r, a) =>
    n + (if reported a then 1 else 0) + (if reported r then 1 else 0) end) categories 0.
(** exec, NetworkConfigQuery.py:1364-1381. *)
Definition semantic_diff (flag cmd : bool) (g1 g2 : config) : answer :=
  match identical g1 g2 true with
  | SamePolicies => Answer true 0 false []
  | _ =>
    let n := diff_count flag g1 g2 in
    if 0 <? n then Answer false (if cmd then 1 else Z.of_nat n) false [] else Answer true 0 false []
  end.

(** ** Queries on one configuration *)
(** DisjointnessQuery.exec, NetworkConfigQuery.py:211-241: the reported pairs. *)
Fixpoint pairs_with (p : policy) (ps : list policy) : list (policy * policy) :=
  match ps with
  | [] => []
  | q :: ps => if policy_eqb p q then []
               else if pbool (pinter (p_selected p) (p_selected q)) then (p, q) :: pairs_with p ps else pairs_with p ps
  end.
Definition overlapping (ps : list policy) : list (policy * policy) :=
  flat_map (fun p => if pbool (p_selected p) then pairs_with p ps else []) ps.
Definition overlaps (g : config) : list (policy * policy) :=
  flat_map (fun l => if is_gateway_layer (fst l) then [] else overlapping (snd l)) (lays (g_pols g)).
Definition disjointness (g : config) : answer :=
  let n := List.length (overlaps g) in Answer (n =? 0) (Z.of_nat n) false [].

(** has_empty_rules: K8sNetworkPolicy.py:94-117, CalicoNetworkPolicy.py:163-194, IstioNetworkPolicy.py:102-121,
    IstioSidecar.py:78-94, GatewayPolicy.py:134-156: the numbers of the empty ingress / egress rules. *)
Definition rule_empty (c : pclass) (r : rule) : bool :=
  match c with CCalico => negb (pbool (r_src r)) || negb (pbool (r_dst r)) | _ => negb (pbool (r_src r)) end.
Fixpoint empty_from (c : pclass) (i : nat) (rs : list rule) : list nat :=
  match rs with
  | [] => []
  | r :: rs => if rule_empty c r then i :: empty_from c (S i) rs else empty_from c (S i) rs
  end.
Definition empty_rules (p : policy) (ingress : bool) : list nat :=
  let c := class_of (p_kind p) in
  match c, ingress with
  | CIstioAP, false | CSidecar, true | CBase, _ => []
  | _, true => empty_from c 1 (p_ingress p)
  | _, false => empty_from c 1 (p_egress p)
  end.
(** EmptinessQuery.exec, NetworkConfigQuery.py:249-283. *)
Definition layer_policies (g : config) : list policy := flat_map snd (lays (g_pols g)).
Definition emptiness_count (g : config) : nat :=
  fold_left (fun n p => n + (if pbool (p_selected p) then 0 else 1) + List.length (empty_rules p true) + List.length (empty_rules p false))
            (layer_policies g) 0.
Definition emptiness (g : config) : answer :=
  let n := emptiness_count g in Answer (0 <? n) (Z.of_nat n) false [].

(** VacuityQuery.exec, NetworkConfigQuery.py:291-306; the default OutputConfiguration excludes IPv6. *)
Definition vacuity (g : config) : answer :=
  let b := a_bool (equivalence true (without_gateways g) (no_policies g) None) in Answer b (bz b) false [].

(** get_affected_pods, NetworkConfig.py:162-176. *)
Definition affected_pods (g : config) (ingress : bool) (pols : list policy) : peerset :=
  fold_left (fun r p => if (if ingress then p_affects_in p else p_affects_eg p) then ps_union r (p_selected p) else r) pols [].
Fixpoint dedup (l : list string) : list string :=
  match l with [] => [] | s :: l => if existsb (String.eqb s) l then dedup l else s :: dedup l end.
(** _get_uncaptured_xgress_pods, NetworkConfigQuery.py:1693-1709. *)
Definition uncaptured (g : config) (pols : list policy) (ingress : bool) : list string :=
  dedup (map pod_name (psub (peers_group (g_peers g) false false) (affected_pods g ingress pols))).
(** _compute_uncaptured_pods_by_layer, NetworkConfigQuery.py:1711-1741. *)
Definition uncaptured_by_layer (g : config) (n : lname) (ingress_only : bool) : nat :=
  match lget (lays (g_pols g)) n with
  | None => 0
  | Some pols => List.length (uncaptured g pols true) + (if ingress_only then 0 else List.length (uncaptured g pols false))
  end.
(** AllCapturedQuery.exec, NetworkConfigQuery.py:1743-1767. *)
Definition all_captured (g : config) : answer :=
  if negb (has_policies g) || only_gateway_layers (lays (g_pols g)) then
    Answer false (Z.of_nat (List.length (peers_group (g_peers g) false false))) false []
  else
    let k := uncaptured_by_layer g LK8sCalico false in
    let i := uncaptured_by_layer g LIstio true in
    if (k =? 0) && (i =? 0) then Answer true 0 false [] else Answer false (Z.of_nat (k + i)) false [].

(** ** RedundancyQuery *)
(** clone_without_rule: K8sNetworkPolicy.py:73-92, CalicoNetworkPolicy.py:141-161, IstioNetworkPolicy.py:123-142 (the
    egress rules are dropped), IstioSidecar.py:96-115 (the ingress rules are dropped; never called for ingress rules),
    GatewayPolicy.py:158-177.  Every rule equal to the given one is dropped. *)
Definition clone_without_rule (p : policy) (r : rule) (ingress : bool) : policy :=
  let c := class_of (p_kind p) in
  let drop := filter (fun s => negb (rule_eqb c s r)) in
  let ins := match c with
             | CSidecar => []
             | CIstioAP => drop (p_ingress p)
             | _ => if ingress then drop (p_ingress p) else p_ingress p end in
  let egs := match c with
             | CIstioAP => []
             | CSidecar => drop (p_egress p)
             | _ => if ingress then p_egress p else drop (p_egress p) end in
  Policy (p_name p) (p_ns p) (p_kind p) (p_affects_in p) (p_affects_eg p) (p_selected p) ins egs (p_ord p) (p_action p).
Definition add_one (g : config) (p : policy) : config :=
  Config (g_peers g) (g_services g) (match append_policy (g_pols g) p with Some c => c | None => g_pols g end).
(** redundant_policies, NetworkConfigQuery.py:314-336 (the names are collected in a set). *)
Definition redundant (g : config) (n : lname) (p : policy) : bool :=
  a_bool (equivalence true g (without_policy g p) (Some n)).
Definition redundant_policies (g : config) (pols : list policy) (n : lname) : list string :=
  if 1 <? List.length pols then dedup (map full_name (filter (redundant g n) pols)) else [].
(** find_redundant_rules, NetworkConfigQuery.py:338-374. *)
Definition rule_redundant (g : config) (n : lname) (p : policy) (ingress : bool) (r : rule) : bool :=
  let m := clone_without_rule p r ingress in
  let rules q := if ingress then p_ingress q else p_egress q in
  if List.length (rules m) <? List.length (rules p) - 1 then true
  else a_bool (equivalence true g (add_one (without_policy g p) m) (Some n)).
Fixpoint indices_from {X} (f : X -> bool) (i : nat) (l : list X) : list nat :=
  match l with [] => [] | x :: l => if f x then i :: indices_from f (S i) l else indices_from f (S i) l end.
Definition redundant_rules (g : config) (n : lname) (p : policy) (ingress : bool) : list nat :=
  indices_from (rule_redundant g n p ingress) 1 (if ingress then p_ingress p else p_egress p).
(** exec, NetworkConfigQuery.py:376-405: the counter, the policies listed in the explanation (those of the last layer
    only) and the rules listed. *)
Record red_state := Red { red_count : nat; red_listed : list string; red_rules : list (policy * list nat * list nat) }.
Definition red_layer (g : config) (st : red_state) (l : lname * list policy) : red_state :=
  if is_gateway_layer (fst l) then st
  else
    let names := redundant_policies g (snd l) (fst l) in
    let rest := filter (fun p => negb (existsb (String.eqb (full_name p)) names)) (snd l) in
    let rs := map (fun p => (p, redundant_rules g (fst l) p true, redundant_rules g (fst l) p false)) rest in
    Red (red_count st + List.length names +
           fold_left (fun n r => n + List.length (snd (fst r)) + List.length (snd r)) rs 0)
        names (red_rules st ++ rs).
Definition redundancy_state (g : config) : red_state := fold_left (red_layer g) (lays (g_pols g)) (Red 0 [] []).
Definition redundancy (g : config) : answer :=
  let n := red_count (redundancy_state g) in
  if 0 <? n then Answer true (Z.of_nat n) false [] else Answer false 0 false [].
End Queries.
Arguments Config {C}. Arguments g_peers {C}. Arguments g_services {C}. Arguments g_pols {C}.
Arguments Answer {C}. Arguments a_bool {C}. Arguments a_num {C}. Arguments a_skip {C}. Arguments a_expl {C}.

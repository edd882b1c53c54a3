(** * Model of the explanations of connectivity: nca/Utils/ExplTracker.py and its callers.

    [ends] gives the peers of the cubes of a connection set ([for cube in conns], then conn_cube["src_peers"] and conn_cube["dst_peers"]), [fname] is
    full_name() of a peer.  Python dictionaries are lists of pairs in the order of insertion, sets of names are lists without duplicates.  [None] is an
    exception.  Connection sets are read over one domain, that of the query; in the code the sets of policies are read over the domain of all peers when
    a policy has been parsed.  Messages of the log are not modelled. *)
From Coq Require Import ZArith List Bool Arith String Ascii.
From Verif Require Import MinDfaModel ConnTextModel IntervalModel TextModel PortProtoModel GraphModel PeerModel PolicyModel QueryModel YamlModel ClusterModel MapModel.
Import ListNotations.
Local Open Scope string_scope.
Local Open Scope list_scope.
Local Open Scope nat_scope.

Definition dget {V} (d : list (string * V)) (k : string) : option V := option_map snd (find (fun e => String.eqb (fst e) k) d).
Definition dput {V} (d : list (string * V)) (k : string) (v : V) : list (string * V) :=
  if existsb (fun e => String.eqb (fst e) k) d then map (fun e => if String.eqb (fst e) k then (k, v) else e) d else d ++ [(k, v)].

(** DEFAULT_POLICY, line 45. *)
Definition default_policy : string := "Default-Policy".
(** The entries of ExplDescriptorContainer, line 152. *)
Record entry := Entry { e_path : string; e_line : Z; e_work : string }.
(** ExplPolicies, lines 57-67. *)
Definition namemap := list (string * sset).
Record affecting := Affecting { af_egress : namemap; af_ingress : namemap; af_all : sset }.
Definition affecting_init : affecting := Affecting [] [] [].
Definition of_dir (ing : bool) (a : affecting) : namemap := if ing then af_ingress a else af_egress a.

(** The text after the last occurrence of [sep] (str.rpartition). *)
Fixpoint after_last (sep s : string) : option string :=
  match s with
  | EmptyString => None
  | String _ t => match after_last sep t with
                  | Some r => Some r
                  | None => if prefix sep s then Some (substring (String.length sep) (String.length s) s) else None
                  end
  end.
(** The path as it is kept, lines 144-151. *)
Definition kept_path (path : string) : string :=
  let path := py_replace "\" "/" path in
  match after_last "network-config-analyzer" path with Some r => ("network-config-analyzer" ++ r)%string | None => path end.

Section Tracker.
Context {C : Type} (A : cops C) (ends : C -> option (list (peerset * peerset))) (fname : peer -> string).
Local Notation policy := (@policy C).

(** The state of ExplTracker, lines 48-55, 102-110; [t_conns] is None while all_conns is the empty dictionary. *)
Record tracker := Tracker { t_items : list (string * entry); t_of : list (string * affecting); t_conns : option C; t_peers : peerset; t_ep : string }.
Definition set_items (t : tracker) l := Tracker l (t_of t) (t_conns t) (t_peers t) (t_ep t).
Definition set_of (t : tracker) l := Tracker (t_items t) l (t_conns t) (t_peers t) (t_ep t).

(** add_item, lines 135-154. *)
Definition add_item (t : tracker) (path : string) (ln : Z) (name work : string) : tracker :=
  if String.eqb name "" then t else set_items t (dput (t_items t) name (Entry (kept_path path) ln work)).
(** activate and _reset, lines 102-118. *)
Definition activate (ep : string) : tracker := add_item (Tracker [] [] None [] ep) "" 0 default_policy "".
(** set_peers, lines 189-194. *)
Definition set_peers (t : tracker) (ps : peerset) : tracker := Tracker (t_items t) (t_of t) (t_conns t) ps (t_ep t).

(** _add_policy_to_map, lines 69-85. *)
Definition add_to_map (ps : peerset) (m : namemap) (name : string) : namemap :=
  fold_left (fun m p => dput m (fname p) (sadd name (sdiscard default_policy (match dget m (fname p) with Some s => s | None => [] end)))) ps m.
(** add_policy, lines 87-100. *)
Definition add_policy (a : affecting) (name : string) (egress_dst ingress_src : peerset) : affecting :=
  Affecting (if pbool egress_dst then add_to_map egress_dst (af_egress a) name else af_egress a)
            (if pbool ingress_src then add_to_map ingress_src (af_ingress a) name else af_ingress a)
            (sadd name (af_all a)).
(** add_peer_policy, lines 156-173. *)
Definition add_peer_policy (t : tracker) (peer_name name : string) (egress_dst ingress_src : peerset) : tracker :=
  match dget (t_items t) peer_name with
  | None => t
  | Some _ => let a := match dget (t_of t) peer_name with Some a => a | None => affecting_init end in
              set_of t (dput (t_of t) peer_name (add_policy a name egress_dst ingress_src))
  end.
(** extract_peers, lines 175-187. *)
Definition extract_peers (t : tracker) (x : C) : option (peerset * peerset) :=
  bind (ends x) (fun l => Some (fold_left (fun r e =>
    (ps_union (fst r) (if pbool (fst e) then fst e else t_peers t), ps_union (snd r) (if pbool (snd e) then snd e else t_peers t))) l ([], []))).
(** allow_ingress_props and allow_egress_props: NetworkPolicy.py:84-98. *)
Definition allow_props (p : policy) (ing : bool) : C := fst (fst (sync_props A p ing)).
(** add_policy_to_peers, lines 240-245. *)
Definition add_policy_to_peers (t : tracker) (p : policy) : option tracker :=
  fold_left (fun acc peer => bind acc (fun t =>
    bind (extract_peers t (allow_props p true)) (fun i =>
    bind (extract_peers t (allow_props p false)) (fun e =>
      Some (add_peer_policy t (fname peer) (p_name p) (snd e) (fst i)))))) (p_selected p) (Some t).
(** is_policy_list_empty, lines 274-287. *)
Definition policy_list_empty (t : tracker) (node : string) (ing : bool) : bool :=
  match dget (t_of t) node with Some a => match of_dir ing a with [] => true | _ => false end | None => true end.
(** add_default_policy, lines 247-272. *)
Definition add_default_policy (t : tracker) (src dst : peerset) (ing : bool) : tracker :=
  fold_left (fun t node => if policy_list_empty t (fname node) ing
                           then add_peer_policy t (fname node) default_policy (if ing then [] else dst) (if ing then src else []) else t)
            (if ing then dst else src) t.
(** set_connections_and_peers, lines 196-211. *)
Definition set_connections_and_peers (t : tracker) (x : C) (peers : peerset) : tracker :=
  fold_left (fun t p =>
    match dget (t_of t) (fname p) with
    | Some _ => t
    | None =>
      let t := match dget (t_items t) (fname p) with Some _ => t | None => add_item t "" 0 (fname p) "" end in
      add_default_policy (add_default_policy t [p] peers false) peers [p] true
    end) peers (Tracker (t_items t) (t_of t) (Some x) peers (t_ep t)).

(** ** Loading, PoliciesFinder.py:69-139 *)
(** A document of the queue: with its policy, or one that is used later (Sidecar, Gateway, VirtualService) under the name of its metadata. *)
Inductive doc := DPolicy (p : policy) (path : string) (ln : Z) | DLater (name path : string) (ln : Z).
Definition load_doc (t : tracker) (d : doc) : option tracker :=
  match d with
  | DPolicy p path ln => bind (add_policy_to_peers t p) (fun t => Some (add_item t path ln (p_name p) ""))
  | DLater name path ln => Some (add_item t path ln name "")
  end.
Definition load_gate (t : tracker) (g : policy * string * Z) : option tracker :=
  add_policy_to_peers (add_item t (snd (fst g)) (snd g) (p_name (fst (fst g))) "") (fst (fst g)).
Definition foldM {S X} (f : S -> X -> option S) (l : list X) (s : S) : option S := fold_left (fun acc x => bind acc (fun s => f s x)) l (Some s).
Definition load (t : tracker) (docs : list doc) (gates : list (policy * string * Z)) (sides : list policy) : option tracker :=
  bind (foldM load_doc docs t) (fun t => bind (foldM load_gate gates t) (fun t => foldM add_policy_to_peers sides t)).
Definition doc_policies (docs : list doc) : list policy := flat_map (fun d => match d with DPolicy p _ _ => [p] | _ => [] end) docs.
Definition all_loaded (docs : list doc) (gates : list (policy * string * Z)) (sides : list policy) : list policy :=
  doc_policies docs ++ map (fun g => fst (fst g)) gates ++ sides.
(** The items of pods, host endpoints, network sets and DNS entries: path, line, name, workload; TopologyObjectsFinder.py:115-116, 172-177, 208-209,
    233-234, 261-262, 274-275. *)
Definition load_items (t : tracker) (items : list (string * Z * string * string)) : tracker :=
  fold_left (fun t i => match i with (path, ln, name, work) => add_item t path ln name work end) items t.

(** ** Default connections *)
(** The connections a layer allows by default, given to the tracker; NetworkLayer.py:213-229 and 268-302 ([None]: no call). *)
Definition k8s_default_conns (ps : peerset) (pols : list policy) (ing : bool) : option C :=
  let r := collect A (fun _ => true) pols ing in
  let nc := psub (filter (fun p => negb (is_hep p)) (peers_group ps false true)) (captured r) in
  if pbool nc then Some (rect_dir A ing (peers_group ps true true) nc) else None.
Definition istio_default_conns (ps : peerset) (pols : list policy) (ing : bool) : option C :=
  let r := collect A istio_capf pols ing in
  let all := peers_group ps true false in
  let dns := all_dns ps in
  let nc := psub (peers_group ps false false) (captured r) in
  if pbool nc then
    Some (if ing then
            let ncd := psub dns (captured r) in
            let x := c_sub A (c_rect A (Some all) (Some nc) None) (denied r) in
            if pbool ncd then c_or A x (c_sub A (c_rect A (Some all) (Some ncd) (Some true)) (denied r)) else x
          else c_sub A (c_or A (c_rect A (Some nc) (Some all) None) (c_rect A (Some nc) (Some dns) (Some true))) (denied r))
  else None.
Definition default_conns (n : lname) := match n with LK8sCalico | LK8sGateway => k8s_default_conns | _ => istio_default_conns end.
Definition track_dir (ps : peerset) (n : lname) (pols : list policy) (t : tracker) (ing : bool) : option tracker :=
  match default_conns n ps pols ing with
  | None => Some t
  | Some x => bind (extract_peers t x) (fun sd => Some (add_default_policy t (fst sd) (snd sd) ing))
  end.
(** NetworkLayer.allowed_connections, NetworkLayer.py:133-164: ingress, then egress. *)
Definition track_layer (ps : peerset) (t : tracker) (l : lname * list policy) : option tracker := foldM (track_dir ps (fst l) (snd l)) [true; false] t.
(** NetworkConfig.allowed_connections for all layers, NetworkConfig.py:202-265. *)
Definition tracked_layers (g : @config C) : list (lname * list policy) :=
  (if pbool (host_eps (g_peers g)) then match lget (lays (g_pols g)) LK8sCalico with None => [(LK8sCalico, [])] | Some _ => [] end else [])
  ++ lays (g_pols g).
Definition track_config (t : tracker) (g : @config C) : option tracker :=
  foldM (track_layer (g_peers g)) (tracked_layers g) (set_peers t (g_peers g)).

(** ** Explaining *)
(** _get_peer_by_name, lines 213-222. *)
Definition peer_by_name (t : tracker) (name : string) : option peer := find (fun p => String.eqb (fname p) name) (t_peers t).
(** are_peers_connected, lines 224-238.  For an unknown name the peer is None, which has no index: an assertion fails (Peer.py:750-751). *)
Definition peers_connected (t : tracker) (src dst : string) : option bool :=
  bind (peer_by_name t src) (fun s => bind (peer_by_name t dst) (fun d => bind (t_conns t) (fun x =>
    Some (c_bool A (c_and A x (c_rect A (Some [s]) (Some [d]) None)))))).
(** get_printout_ep_name, lines 330-344 ([None]: AttributeError). *)
Definition printout_name (t : tracker) (name : string) : option string :=
  if String.eqb (t_ep t) "deployments" then
    bind (dget (t_items t) name) (fun e => Some (if String.eqb (e_work e) "" then name else e_work e))
  else Some name.
(** get_working_ep_name, lines 388-409. *)
Definition working_name (t : tracker) (name : string) : string :=
  let name := py_replace "]" ")" (py_replace "[" "(" name) in
  if String.eqb (t_ep t) "deployments" then
    match find (fun e => String.eqb name (e_work (snd e)) || String.eqb name (fst e)) (t_items t) with Some e => fst e | None => "" end
  else name.
(** The results of explain, lines 411-477, before they are written: nothing (an error is logged), the policies of one node, or for two nodes whether
    they are connected and the policies of both. *)
Inductive report := RNone | ROne (node : string) (r : list string) | RTwo (connected : bool) (src dst : string) (rs rd : list string).
Definition has_results (t : tracker) (node : string) : bool :=
  match dget (t_items t) (working_name t node), dget (t_of t) (working_name t node) with Some _, Some _ => true | _, _ => false end.
Definition policies_of (t : tracker) (node : string) (f : affecting -> option sset) : list string :=
  match dget (t_of t) node with Some a => match f a with Some s => sorted_set s | None => [] end | None => [] end.
Definition explain_nodes (t : tracker) (nodes : list string) : option report :=
  if negb (forallb (has_results t) nodes) then Some RNone
  else match nodes with
  | [n] => let n := working_name t n in Some (ROne n (policies_of t n (fun a => Some (af_all a))))
  | [n; m] =>
    let s := working_name t n in let d := working_name t m in
    bind (peers_connected t s d) (fun b =>
      Some (if b then RTwo true s d (policies_of t s (fun a => dget (af_egress a) d)) (policies_of t d (fun a => dget (af_ingress a) s))
            else RTwo false s d (policies_of t s (fun a => Some (af_all a))) (policies_of t d (fun a => Some (af_all a)))))
  | _ => Some RNone
  end.
(** One line of prepare_node_str, lines 307-327. *)
Definition item_line (t : tracker) (shown name : string) : string :=
  match dget (t_items t) name with
  | None => (shown ++ " - explainability entry not found")%string
  | Some e => if String.eqb (e_path e) "" then shown else (shown ++ ": line " ++ str_of_Z (e_line e) ++ " in file " ++ e_path e)%string
  end.
(** prepare_node_str, lines 289-328, for the policies [r] and the node itself. *)
Definition node_lines (t : tracker) (node : string) (r : list string) (dir : option string) : option (list string) :=
  bind (printout_name t node) (fun shown => bind (dget (t_items t) node) (fun e =>
    Some (if String.eqb (e_path e) "" then []
          else match dir with Some d => [(String newline ("(" ++ d ++ ")" ++ shown ++ ":"))%string] | None => [] end
               ++ "Policy Configurations:" :: map (fun n => item_line t n n) r
               ++ match r with [] => [item_line t node node] | _ => ["Resource Configurations:"; item_line t shown node] end))).
Definition report_lines (t : tracker) (r : report) : option (list string) :=
  match r with
  | RNone => Some []
  | ROne n r => bind (printout_name t n) (fun shown => bind (node_lines t n r None) (fun l =>
      Some (("Configurations affecting " ++ shown ++ ":")%string :: l)))
  | RTwo b s d rs rd =>
    bind (printout_name t s) (fun s' => bind (printout_name t d) (fun d' =>
    bind (node_lines t s rs (Some "src")) (fun ls => bind (node_lines t d rd (Some "dst")) (fun ld =>
      Some (((if b then String newline "Configurations affecting the connectivity between (src)"
              else "Configurations affecting the LACK of connectivity between (src)") ++ s' ++ " and (dst)" ++ d' ++ ":")%string :: ls ++ ld)))))
  end.
Definition explain (t : tracker) (nodes : list string) : option string :=
  bind (explain_nodes t nodes) (fun r => bind (report_lines t r) (fun l => Some (join (String newline "") l))).
(** explain_all, lines 346-386: the entries (src, dst, text); the XML around them is not modelled.  The name of a workload stands for its first pod. *)
Definition all_names (t : tracker) : option (list string) :=
  bind (foldM (fun st p =>
    bind (printout_name t (fname p)) (fun d =>
      Some (if String.eqb (t_ep t) "deployments" && smem d (snd st) then st else (sadd (fname p) (fst st), sadd d (snd st)))))
    (t_peers t) ([], [])) (fun st => Some (sorted_set (fst st))).
Definition explain_all (t : tracker) : option (list (string * string * string)) :=
  bind (all_names t) (fun names =>
    mapM (fun ab => bind (explain t (if String.eqb (fst ab) (snd ab) then [fst ab] else [fst ab; snd ab])) (fun text =>
                    bind (printout_name t (fst ab)) (fun s => bind (printout_name t (snd ab)) (fun d => Some (s, d, text)))))
         (flat_map (fun a => map (fun b => (a, b)) names) names)).

(** ** The connectivity map with explanations, NetworkConfigQuery.py:742-783 *)
Section Run.
Context (cl : cluster) (owner workload : peer -> string) (Q : qops C) (h6 : policy -> bool).
(** all_peers, lines 757-776. *)
Definition expl_peers (t : tracker) (flag : bool) (s : subset) (g : @config C) : option peerset :=
  let x := all_conns_of A g None in
  let peers := ps_union (peers_group (g_peers g) false true) (q_peers Q x) in
  let ex6 := excludes6 h6 flag g in
  let peers := if ex6 then mask_peers peers else peers in
  let x := if ex6 then c_and A x (c_rect A (Some peers) (Some peers) None) else x in
  let sub := compute_subset cl owner workload s peers in
  if List.length sub =? List.length peers then Some sub
  else bind (extract_peers t (c_and A x (c_or A (c_rect A (Some sub) None None) (c_rect A None (Some sub) None)))) (fun sd => Some (ps_union (fst sd) (snd sd))).
Definition expl_conns (flag : bool) (s : subset) (g : @config C) : C :=
  let x := fst (map_conns cl owner workload A Q h6 flag s g) in
  if istio_layers (lays (g_pols g)) then fst (split_by_tcp A x) else x.
Definition run_map (t : tracker) (flag : bool) (s : subset) (g : @config C) : option tracker :=
  bind (track_config t g) (fun t => bind (expl_peers t flag s g) (fun ps => Some (set_connections_and_peers t (expl_conns flag s g) ps))).
(** The tracker after activation, loading of topology and policies, and the query. *)
Definition tracked (ep : string) (items : list (string * Z * string * string)) (docs : list doc) (gates : list (policy * string * Z)) (sides : list policy)
                   (flag : bool) (s : subset) (g : @config C) : option tracker :=
  bind (load (load_items (activate ep) items) docs gates sides) (fun t => run_map t flag s g).
End Run.
End Tracker.

(** * Model of policies, network layers and network configurations.

    nca/Resources/PolicyResources/{NetworkPolicy, K8sNetworkPolicy, CalicoNetworkPolicy, IstioNetworkPolicy,
    IstioSidecar, GatewayPolicy}.py, nca/NetworkConfig/{NetworkLayer, NetworkConfig}.py and the peer groups of
    nca/NetworkConfig/PeerContainer.py:302-327.

    The connection sets (ConnectivityProperties objects) are of an abstract type [C] with the operations the code
    calls on them ([cops]); ConnAlg.v instantiates it with the model of the hyper-cube sets.  Peer sets are the
    ones of PeerModel.v.

    Not modelled: the explanation tracker (ExplTracker), findings, the lazy re-computation of properties
    ([props_in_sync]: the model recomputes, the results are the same), the copies made before destructive
    operations (the model is functional), the switch of the peer domains per query
    (reorganize_props_by_new_domains / restore_props). *)
From Coq Require Import ZArith List Bool Arith String.
From Verif Require Import IntervalModel PortProtoModel PeerModel.
Import ListNotations.
Local Open Scope string_scope.
Local Open Scope nat_scope.

(** Operations on ConnectivityProperties used by policies, layers and configs. *)
Record cops (C : Type) := COps {
  c_empty : C;                         (* ConnectivityProperties() *)
  c_or : C -> C -> C;                  (* | and |= *)
  c_and : C -> C -> C;                 (* & and &= *)
  c_sub : C -> C -> C;                 (* - and -= *)
  c_bool : C -> bool;                  (* bool() *)
  c_eqb : C -> C -> bool;              (* == *)
  c_cont : C -> C -> bool;             (* contained_in *)
  (* make_conn_props_from_dict({"src_peers": .., "dst_peers": .., "protocols": ..}); a missing key is [None];
     protocols: [Some true] = {TCP}, [Some false] = all but TCP *)
  c_rect : option peerset -> option peerset -> option bool -> C
}.
Arguments COps {C}. Arguments c_empty {C}. Arguments c_or {C}. Arguments c_and {C}. Arguments c_sub {C}.
Arguments c_bool {C}. Arguments c_eqb {C}. Arguments c_cont {C}. Arguments c_rect {C}.

(** NetworkPolicy.PolicyType, NetworkPolicy.py:17-32. *)
Inductive ptype := TUnknown | TK8s | TCalico | TCalicoGlobal | TCalicoProfile | TIstioAP | TSidecar | TIngress
                 | TGateway | TVirtualService | TGatewayPolicy | TList.
Definition ptype_eqb (a b : ptype) : bool :=
  match a, b with
  | TUnknown, TUnknown | TK8s, TK8s | TCalico, TCalico | TCalicoGlobal, TCalicoGlobal
  | TCalicoProfile, TCalicoProfile | TIstioAP, TIstioAP | TSidecar, TSidecar | TIngress, TIngress
  | TGateway, TGateway | TVirtualService, TVirtualService | TGatewayPolicy, TGatewayPolicy | TList, TList => true
  | _, _ => false
  end.
(** The Python class of a policy object, determined by its kind. *)
Inductive pclass := CK8s | CCalico | CIstioAP | CSidecar | CGateway | CBase.
Definition class_of (k : ptype) : pclass :=
  match k with
  | TK8s => CK8s
  | TCalico | TCalicoGlobal | TCalicoProfile => CCalico
  | TIstioAP => CIstioAP
  | TSidecar => CSidecar
  | TIngress | TGatewayPolicy => CGateway
  | _ => CBase
  end.
Definition pclass_eqb (a b : pclass) : bool :=
  match a, b with
  | CK8s, CK8s | CCalico, CCalico | CIstioAP, CIstioAP | CSidecar, CSidecar | CGateway, CGateway | CBase, CBase => true
  | _, _ => false
  end.

(** Rule actions (CalicoNetworkPolicy.py:16-23) and policy actions (IstioNetworkPolicy.py:44-51, GatewayPolicy.py:57-62). *)
Inductive action := Allow | Deny | Pass | Log.
Definition action_eqb (a b : action) : bool :=
  match a, b with Allow, Allow | Deny, Deny | Pass, Pass | Log, Log => true | _, _ => false end.

(** NetworkLayerName, NetworkLayer.py:22-26. *)
Inductive lname := LK8sCalico | LIstio | LK8sGateway | LIstioGateway.
Definition lname_eqb (a b : lname) : bool :=
  match a, b with
  | LK8sCalico, LK8sCalico | LIstio, LIstio | LK8sGateway, LK8sGateway | LIstioGateway, LIstioGateway => true
  | _, _ => false
  end.
(** policy_type_to_layer, NetworkLayer.py:39-50. *)
Definition layer_of_type (k : ptype) : option lname :=
  match k with
  | TK8s | TCalico | TCalicoGlobal | TCalicoProfile => Some LK8sCalico
  | TIstioAP | TSidecar => Some LIstio
  | TIngress => Some LK8sGateway
  | TGatewayPolicy => Some LIstioGateway
  | _ => None
  end.

(** PolicyConnectionsFilter, NetworkPolicy.py:389-415.  [mkfilter] is the constructor followed by __post_init__,
    which also runs in dataclasses.replace. *)
Record cfilter := CFilter { f_allowed : bool; f_denied : bool; f_pass : bool; f_all : bool }.
Definition mkfilter (a d p al : bool) : cfilter := CFilter a d p (al || a).
Definition filter_default : cfilter := mkfilter true true true true.
Definition only_allowed : cfilter := mkfilter true false false false.
Definition only_denied : cfilter := mkfilter false true false false.
Definition only_all_allowed : cfilter := mkfilter false false false true.
(** replace(res_conns_filter, calc_all_allowed=False), NetworkConfig.py:232, 242. *)
Definition replace_no_all (f : cfilter) : cfilter := mkfilter (f_allowed f) (f_denied f) (f_pass f) false.

(** ** Peer sets *)
(** ps_diff and ps_inter never fail on well-formed sets (PeerSetFacts.ps_diff_ok, ps_inter_ok). *)
Definition psub (s t : peerset) : peerset := match ps_diff s t with Some r => r | None => s end.
Definition pinter (s t : peerset) : peerset := match ps_inter s t with Some r => r | None => s end.
Definition pbool (s : peerset) : bool := match s with [] => false | _ => true end.
(** IpBlock.get_all_ips_block (Peer.py:334-347) and get_all_ips_block_peer_set (Peer.py:349-358). *)
Definition all_ips : iset := match get_all_ips_block false false with Some l => l | None => [] end.
Definition all_ips_set : peerset := [Block all_ips].
Definition is_hep (p : peer) : bool := match p with Named k _ => Nat.eqb k 1 | _ => false end.

(** get_all_peers_group, PeerContainer.py:302-319, with include_globals=True; [ps] is peer_set. *)
Definition peers_group (ps : peerset) (ips dns : bool) : peerset :=
  let res := fold_left (fun r p => if is_dns p && negb dns then r else padd p r) ps [] in
  if ips then padd (Block all_ips) res else res.
(** get_all_dns_entries, PeerContainer.py:321-326. *)
Definition all_dns (ps : peerset) : peerset := fold_left (fun r p => if is_dns p then padd p r else r) ps [].

Section Policies.
Context {C : Type} (A : cops C).

(** A rule of a policy.  For K8s, Istio and gateway rules only [r_src] (peer_set) and [r_props] are used. *)
Record rule := Rule { r_action : action; r_src : peerset; r_dst : peerset; r_props : C }.
Record policy := Policy {
  p_name : string; p_ns : string; p_kind : ptype;
  p_affects_in : bool; p_affects_eg : bool;
  p_selected : peerset;
  p_ingress : list rule; p_egress : list rule;
  p_ord : option Z;             (* order of a Calico policy; None = infinity *)
  p_action : action             (* Istio AuthorizationPolicy, GatewayPolicy *)
}.
(** full_name, NetworkPolicy.py:150-161 (without config name). *)
Definition full_name (p : policy) : string :=
  if String.eqb (p_ns p) "" then p_name p else p_ns p ++ "/" ++ p_name p.

(** ** Connections of one policy *)
(** The triple (allow, deny, pass) of one direction. *)
Definition trip := (C * C * C)%type.
(** _update_opt_props_by_order, CalicoNetworkPolicy.py:81-106. *)
Definition calico_step (t : trip) (r : rule) : trip :=
  match t with (al, dn, ps) =>
    match r_action r with
    | Allow => (c_or A al (c_sub A (c_sub A (r_props r) dn) ps), dn, ps)
    | Deny => (al, c_or A dn (c_sub A (c_sub A (r_props r) al) ps), ps)
    | Pass => (al, dn, c_or A ps (c_sub A (c_sub A (r_props r) al) dn))
    | Log => t
    end
  end.
Definition calico_props (rs : list rule) : trip := fold_left calico_step rs (c_empty A, c_empty A, c_empty A).
(** The loops [props |= rule.props], K8sNetworkPolicy.py:48-51, IstioNetworkPolicy.py:78-82, IstioSidecar.py:62-63,
    GatewayPolicy.py:104-113. *)
Definition union_props (rs : list rule) : C := fold_left (fun acc r => c_or A acc (r_props r)) rs (c_empty A).

(** sync_props: K8sNetworkPolicy.py:40-52, CalicoNetworkPolicy.py:108-118, IstioNetworkPolicy.py:69-85 (line 84 sets
    a misspelled attribute, without effect), IstioSidecar.py:52-64, GatewayPolicy.py:96-114. *)
Definition sync_props (p : policy) (ingress : bool) : trip :=
  let rs := if ingress then p_ingress p else p_egress p in
  let e := c_empty A in
  let by_action rs := match p_action p with Allow => (union_props rs, e, e) | Deny => (e, union_props rs, e) | _ => (e, e, e) end in
  match class_of (p_kind p) with
  | CK8s => (union_props rs, e, e)
  | CCalico => calico_props rs
  | CIstioAP => if ingress then by_action rs else (e, e, e)
  | CSidecar => if ingress then (c_rect A None None None, e, e) else (union_props rs, e, e)
  | CGateway => by_action rs
  | CBase => (e, e, e)
  end.

(** PolicyConnections, NetworkPolicy.py:341-353. *)
Record pconns := PConns { captured : peerset; allowed : C; denied : C; passed : C; all_allowed : C }.
Definition pconns_empty : pconns := PConns [] (c_empty A) (c_empty A) (c_empty A) (c_empty A).

(** The captured peers: K8sNetworkPolicy.py:63-70, CalicoNetworkPolicy.py:130-141, IstioNetworkPolicy.py:97-106,
    IstioSidecar.py:66-76, GatewayPolicy.py:124-134. *)
Definition policy_captured (p : policy) (ingress : bool) : peerset :=
  match class_of (p_kind p) with
  | CIstioAP => if ingress then p_selected p else []
  | CSidecar => if ingress then [] else if p_affects_eg p then p_selected p else []
  | CBase => []
  | _ => if (if ingress then p_affects_in p else p_affects_eg p) then p_selected p else []
  end.
(** allowed_connections of a policy. *)
Definition policy_conns (p : policy) (ingress : bool) : pconns :=
  match sync_props p ingress with
    (al, dn, ps) => PConns (policy_captured p ingress) al dn ps (c_empty A)
  end.

(** ** Ordering of policies *)
(** get_order: NetworkPolicy.py:312-317, K8sNetworkPolicy.py:158-163, CalicoNetworkPolicy.py:288-293. *)
Definition get_order (p : policy) : option Z :=
  match class_of (p_kind p) with
  | CK8s => Some 1000%Z
  | CCalico => p_ord p
  | _ => None
  end.
(** __lt__: NetworkPolicy.py:133-148, IstioNetworkPolicy.py:63-67. *)
Definition policy_lt (p q : policy) : bool :=
  match class_of (p_kind p) with
  | CIstioAP => match class_of (p_kind q) with CIstioAP => action_eqb (p_action p) Deny | _ => false end
  | _ => match get_order p, get_order q with
         | None, _ => false
         | Some _, None => true
         | Some a, Some b => (a <? b)%Z
         end
  end.
(** bisect.insort (insort_right) of the Python library, used by NetworkLayer.add_policy, NetworkLayer.py:126-131. *)
Fixpoint bisect (fuel : nat) (l : list policy) (x : policy) (low high : nat) : option nat :=
  match fuel with
  | O => None
  | S f =>
    if low <? high then
      let mid := (low + high) / 2 in
      match nth_error l mid with
      | Some y => if policy_lt x y then bisect f l x low mid else bisect f l x (mid + 1) high
      | None => None
      end
    else Some low
  end.
Definition insort (l : list policy) (x : policy) : option (list policy) :=
  match bisect (S (List.length l)) l x 0 (List.length l) with
  | Some i => Some (firstn i l ++ x :: skipn i l)%list
  | None => None
  end.

(** ** Layers *)
(** NetworkLayersContainer, NetworkLayer.py:53-84: a dict in insertion order. *)
Definition layers := list (lname * list policy).
Definition layers_init : layers := [(LK8sCalico, [])].
Definition lget (ls : layers) (n : lname) : option (list policy) :=
  match find (fun e => lname_eqb (fst e) n) ls with Some e => Some (snd e) | None => None end.
Fixpoint lset (ls : layers) (n : lname) (l : list policy) : layers :=
  match ls with
  | [] => [(n, l)]
  | e :: t => if lname_eqb (fst e) n then (n, l) :: t else e :: lset t n l
  end.
Definition ldel (ls : layers) (n : lname) : layers := filter (fun e => negb (lname_eqb (fst e) n)) ls.
Definition layers_add (ls : layers) (p : policy) (on : option lname) : option layers :=
  match on with
  | None => Some ls
  | Some n =>
    match (match lget ls n with None => Some [p] | Some l => insort l p end) with
    | None => None
    | Some l' =>
      let ls := lset ls n l' in
      Some (match lget ls LK8sCalico with Some [] => ldel ls LK8sCalico | _ => ls end)
    end
  end.

(** PoliciesContainer, NetworkConfig.py:14-41 ([None]: an exception is raised). *)
Record pcont := PCont { policies : list ((string * ptype) * policy); lays : layers }.
Definition pcont_init : pcont := PCont [] layers_init.
Definition key_eqb (a b : string * ptype) : bool := String.eqb (fst a) (fst b) && ptype_eqb (snd a) (snd b).
Definition append_policy (c : pcont) (p : policy) : option pcont :=
  if ptype_eqb (p_kind p) TUnknown then None
  else if existsb (fun e => key_eqb (fst e) (full_name p, p_kind p)) (policies c) then None
  else match layers_add (lays c) p (layer_of_type (p_kind p)) with
       | None => None
       | Some ls => Some (PCont (policies c ++ [((full_name p, p_kind p), p)])%list ls)
       end.

(** collect_policies_conns_optimized, NetworkLayer.py:173-199. *)
Definition collect_step (capf : policy -> bool) (ingress : bool) (res : pconns) (p : policy) : pconns :=
  let pc := policy_conns p ingress in
  if pbool (captured pc) then
    let cap := if capf p then ps_union (captured res) (captured pc) else captured res in
    let dn := c_sub A (c_sub A (denied pc) (allowed res)) (passed res) in
    let al := c_sub A (c_sub A (allowed pc) (denied res)) (passed res) in
    let ps := c_sub A (c_sub A (passed pc) (denied res)) (allowed res) in
    PConns cap (c_or A (allowed res) al) (c_or A (denied res) dn) (c_or A (passed res) ps) (all_allowed res)
  else res.
Definition collect (capf : policy -> bool) (ps : list policy) (ingress : bool) : pconns :=
  fold_left (collect_step capf ingress) ps pconns_empty.

(** Rectangle "remote x local": for ingress the local side is the destination. *)
Definition rect_dir (ingress : bool) (remote loc : peerset) : C :=
  if ingress then c_rect A (Some remote) (Some loc) None else c_rect A (Some loc) (Some remote) None.

(** K8sCalicoNetworkLayer._allowed_xgress_conns, NetworkLayer.py:204-245; [ps] is the peer set of the container. *)
Definition k8s_xgress (ps : peerset) (pols : list policy) (f : cfilter) (ingress : bool) : pconns :=
  let r := collect (fun _ => true) pols ingress in
  let all := peers_group ps true true in
  let base := filter (fun p => negb (is_hep p)) (peers_group ps false true) in
  let nc := psub base (captured r) in
  let aa := if pbool nc && f_all f then c_or A (all_allowed r) (rect_dir ingress all nc) else all_allowed r in
  let cp := pinter base (captured r) in
  let al := if pbool cp && c_bool A (passed r) then c_or A (allowed r) (c_and A (passed r) (rect_dir ingress all cp)) else allowed r in
  let aa := if f_all f then c_or A aa al else aa in
  PConns (captured r) al (denied r) (passed r) aa.

(** IstioNetworkLayer.captured_cond_func, NetworkLayer.py:249-255. *)
Definition istio_capf (p : policy) : bool :=
  match p_kind p with
  | TIstioAP | TGatewayPolicy => action_eqb (p_action p) Allow
  | _ => true
  end.
(** IstioNetworkLayer._allowed_xgress_conns, NetworkLayer.py:257-303. *)
Definition istio_xgress (ps : peerset) (pols : list policy) (f : cfilter) (ingress : bool) : pconns :=
  let r := collect istio_capf pols ingress in
  if negb (f_all f) then r
  else
    let all := peers_group ps true false in
    let pods := peers_group ps false false in
    let dns := all_dns ps in
    let aa := c_or A (all_allowed r) (c_or A (allowed r) (c_rect A (Some all) (Some all) (Some false))) in
    let nc := psub pods (captured r) in
    let aa :=
      if pbool nc then
        let ncc :=
          if ingress then
            let ncd := psub dns (captured r) in
            let x := c_sub A (c_rect A (Some all) (Some nc) None) (denied r) in
            if pbool ncd then c_or A x (c_sub A (c_rect A (Some all) (Some ncd) (Some true)) (denied r)) else x
          else c_sub A (c_or A (c_rect A (Some nc) (Some all) None) (c_rect A (Some nc) (Some dns) (Some true))) (denied r) in
        c_or A aa ncc
      else aa in
    PConns (captured r) (allowed r) (denied r) (passed r) aa.

(** K8sGatewayLayer and IstioGatewayLayer inherit, NetworkLayer.py:306-311. *)
Definition xgress (n : lname) := match n with LK8sCalico | LK8sGateway => k8s_xgress | _ => istio_xgress end.

(** NetworkLayer.allowed_connections, NetworkLayer.py:133-164. *)
Definition layer_conns (n : lname) (ps : peerset) (pols : list policy) (f : cfilter) : pconns :=
  let i := xgress n ps pols f true in
  let e := xgress n ps pols f false in
  let pods := peers_group ps false false in
  let iall := if f_all f then c_or A (all_allowed i) (c_rect A (Some pods) (Some all_ips_set) None) else all_allowed i in
  let eall := if f_all f then c_or A (all_allowed e) (c_rect A (Some all_ips_set) (Some pods) None) else all_allowed e in
  PConns (ps_union (captured i) (captured e))
         (if f_allowed f then c_or A (c_and A (allowed i) eall) (c_and A (allowed e) iall) else c_empty A)
         (if f_denied f then c_or A (denied i) (denied e) else c_empty A)
         (c_empty A)
         (if f_all f then c_and A iall eall else c_empty A).

(** and_by_filter / sub_by_filter, NetworkPolicy.py:355-386. *)
Definition by_filter (op : C -> C -> C) (r : pconns) (x : C) (f : cfilter) : pconns :=
  PConns (captured r)
         (if f_allowed f then op (allowed r) x else allowed r)
         (if f_denied f then op (denied r) x else denied r)
         (if f_pass f then op (passed r) x else passed r)
         (if f_all f then op (all_allowed r) x else all_allowed r).

(** NetworkConfig.allowed_connections, NetworkConfig.py:202-257, for one layer (211-219) and for all layers (221-257). *)
Definition config_layer_conns (ps : peerset) (ls : layers) (n : lname) (f : cfilter) : pconns :=
  match lget ls n with
  | None => layer_conns n ps [] f
  | Some pols => layer_conns n ps pols f
  end.
Definition host_eps (ps : peerset) : peerset := filter is_hep (peers_group ps false false).
Definition conn_hep (ps : peerset) : C :=
  c_or A (c_rect A (Some (host_eps ps)) None None) (c_rect A None (Some (host_eps ps)) None).
Definition config_start (ps : peerset) (ls : layers) (f : cfilter) : pconns :=
  match pbool (host_eps ps), lget ls LK8sCalico with
  | true, None => by_filter (c_and A) (layer_conns LK8sCalico ps [] f) (conn_hep ps) (replace_no_all f)
  | _, _ => PConns [] (c_empty A) (c_empty A) (c_empty A)
              (if f_all f then c_rect A (Some (peers_group ps true true)) (Some (peers_group ps true true)) None else c_empty A)
  end.
Definition config_step (ps : peerset) (f : cfilter) (res : pconns) (l : lname * list policy) : pconns :=
  let lc := layer_conns (fst l) ps (snd l) f in
  let lc := if lname_eqb (fst l) LK8sCalico then lc else by_filter (c_sub A) lc (conn_hep ps) (replace_no_all f) in
  PConns (ps_union (captured res) (captured lc))
         (if f_allowed f then c_or A (allowed res) (allowed lc) else allowed res)
         (if f_denied f then c_or A (denied res) (denied lc) else denied res)
         (passed res)
         (if f_all f then c_and A (all_allowed res) (all_allowed lc) else all_allowed res).
Definition config_conns (ps : peerset) (ls : layers) (f : cfilter) : pconns :=
  let r := fold_left (config_step ps f) ls (config_start ps ls f) in
  PConns (captured r) (if f_allowed f then c_and A (allowed r) (all_allowed r) else allowed r)
         (denied r) (passed r) (all_allowed r).

(** filter_conns_by_peer_types, NetworkConfig.py:267-285. *)
Definition filter_by_peer_types (ps : peerset) (x : C) : C :=
  let dns := all_dns ps in
  c_sub A (c_sub A x (c_rect A (Some all_ips_set) (Some (ps_union all_ips_set dns)) None))
          (c_rect A (Some dns) None None).
End Policies.
Arguments Rule {C}. Arguments Policy {C}. Arguments PConns {C}. Arguments PCont {C}.
Arguments r_action {C}. Arguments r_src {C}. Arguments r_dst {C}. Arguments r_props {C}.
Arguments p_name {C}. Arguments p_ns {C}. Arguments p_kind {C}. Arguments p_affects_in {C}. Arguments p_affects_eg {C}.
Arguments p_selected {C}. Arguments p_ingress {C}. Arguments p_egress {C}. Arguments p_ord {C}. Arguments p_action {C}.
Arguments captured {C}. Arguments allowed {C}. Arguments denied {C}. Arguments passed {C}. Arguments all_allowed {C}.
Arguments policies {C}. Arguments lays {C}.

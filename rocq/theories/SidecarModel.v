(** * Model of nca/Parsers/IstioSidecarYamlParser.py and IstioSidecar.create_opt_egress_props: from decoded Sidecar documents to policies.

    The parser object keeps its state over the documents of a configuration (PoliciesFinder.py:101-113); here the state is a record
    passed along.  Services with their target pods come from ServiceModel.v.  Not modelled: warnings, referenced_labels, findings. *)
From Coq Require Import ZArith List Bool Arith String Ascii.
From Verif Require Import IntervalModel TextModel PortProtoModel PeerModel HyperModel HyperInst ConnModel PolicyModel YamlModel ClusterModel
                          K8sParserModel CalicoSelectorModel CalicoParserModel ConnDict IstioValueModel IstioParserModel ServiceModel.
Import ListNotations.
Local Open Scope string_scope.
Local Open Scope list_scope.
Local Open Scope nat_scope.

(** ** Hosts *)
(** _validate_and_partition_host_format, IstioSidecarYamlParser.py:33-47: exactly one slash, text on both sides. *)
Definition host_parts (h : string) : option (string * string) :=
  match split "/" h with
  | [a; b] => if String.eqb a "" || String.eqb b "" then None else Some (a, b)
  | _ => None
  end.
(** The check of IstioSidecarYamlParser.py:59-61. *)
Definition host_ns_ok (a : string) : bool :=
  negb ((has_char "*" a || has_char "." a || has_char "~" a) && negb (Nat.eqb (String.length a) 1)).
(** fqdn_regex, IstioSidecarYamlParser.py:97-98, with at least one dot: up to 254 characters, labels separated by dots, an optional dot at the end. *)
Definition fqdn_label (s : string) : bool := bracketed alnum (fun c => alnum c || Ascii.eqb c "-") s.
Definition fqdn_ok (s : string) : bool :=
  has_char "." s && Nat.leb (String.length s) 254 &&
  let ls := split "." s in
  forallb fqdn_label ls || (String.eqb (last ls "x") "" && forallb fqdn_label (removelast ls)).
(** _validate_dns_name_pattern, IstioSidecarYamlParser.py:77-100; [b] is not empty. *)
Definition dns_name_ok (b : string) : bool :=
  if String.eqb b "*" then true
  else if has_char "*" b then
    match b with
    | String c1 (String c2 rest) =>
        Ascii.eqb c1 "*" && Ascii.eqb c2 "." && negb (has_char "*" rest) && (String.eqb rest "" || fqdn_ok rest)
    | _ => false
    end
  else fqdn_ok b.
(** re.fullmatch(DNSEntry.dns_pattern, p), Peer.py:476. *)
Definition dns_pattern (p : string) : bool := String.eqb p "" || bracketed alnum name_char p.
(** re.fullmatch(compute_re_pattern_from_host_name(host), name), Peer.py:505-518. *)
Definition host_fullmatch (host name : string) : bool :=
  match host with
  | String c rest =>
    if Ascii.eqb c "*" then suffix_of rest name && dns_pattern (substring 0 (String.length name - String.length rest) name)
    else String.eqb host name
  | EmptyString => String.eqb host name
  end.

Section Sidecars.
Context (cl : cluster) (svcs : list service).
(** get_all_services_target_peers and get_services_target_peers_in_namespace, PeerContainer.py:238-269; the DNS entries are always added. *)
Definition service_peers (f : service -> bool) : peerset :=
  fold_left (fun r p => if is_dns p then padd p r else r) (cl_peers cl)
            (fold_left (fun r s => if f s then ps_union r (sv_pods s) else r) svcs []).
(** get_target_pods_with_service_name, PeerContainer.py:195-205. *)
Definition pods_of_service (name : string) : peerset :=
  fold_left (fun r s => if String.eqb (sv_name s) name then ps_union r (sv_pods s) else r) svcs [].
(** get_dns_entry_peers_matching_host_name, PeerContainer.py:207-225. *)
Definition dns_matching (host : string) : peerset :=
  select cl (fun p => match p with Named _ n => is_dns p && (String.eqb n host || host_fullmatch host n) | Block _ => false end).
(** get_all_dns_entries, PeerContainer.py:321-326. *)
Definition dns_entries : peerset := select cl is_dns.

(** _get_peers_from_host_namespace, IstioSidecarYamlParser.py:49-75; [own] is the namespace of the Sidecar. *)
Definition host_namespace (own a : string) : option (peerset * bool) :=
  if negb (host_ns_ok a) then None
  else if String.eqb a "*" then Some (service_peers (fun _ => true), false)
  else if String.eqb a "." then
    if String.eqb own root_namespace then Some (service_peers (fun _ => true), true)
    else Some (service_peers (fun s => String.eqb (sv_ns s) own), false)
  else if String.eqb a "~" then Some ([], false)
  else Some (service_peers (fun s => String.eqb (sv_ns s) a), false).
(** _get_peers_from_host_dns_name, IstioSidecarYamlParser.py:102-123. *)
Definition host_dns_name (b : string) (peers : peerset) : option peerset :=
  if String.eqb b "*" then Some peers
  else if contains_str "svc.cluster.local" b then
    if prefix "*." b then Some peers
    else ps_inter peers (pods_of_service (match split "." b with s :: _ => s | [] => "" end))
  else ps_inter peers (dns_matching b).
(** One turn of the loop of _parse_egress_rule, IstioSidecarYamlParser.py:141-151: (res_peers, special_res_peers). *)
Definition egress_host (own : string) (acc : peerset * peerset) (y : yaml) : option (peerset * peerset) :=
  match y with
  | YStr h =>
    bind (host_parts h) (fun ab =>
    bind (host_namespace own (fst ab)) (fun ps =>
    if negb (dns_name_ok (snd ab)) then None
    else bind (if pbool (fst ps) then host_dns_name (snd ab) (fst ps) else Some (fst ps)) (fun peers =>
         Some (if snd ps then (fst acc, ps_union (snd acc) peers) else (ps_union (fst acc) peers, snd acc)))))
  | _ => None
  end.
(** _parse_egress_rule, IstioSidecarYamlParser.py:125-153. *)
Definition egress_rule (own : string) (y : yaml) : option (peerset * peerset) :=
  bind (check_fields y [Field "port" Ignored (Some TyDict) None; Field "bind" Ignored (Some TyStr) None;
                        Field "captureMode" Ignored (Some TyStr) None; Field "hosts" Mandatory (Some TyList) None]) (fun m =>
  match yget m "hosts" with
  | YList (h :: t) => fold_left (fun acc y => bind acc (fun st => egress_host own st y)) (h :: t) (Some ([], []))
  | _ => None
  end).
(** _parse_outbound_traffic_policy, IstioSidecarYamlParser.py:186-201: whether the mode is ALLOW_ANY. *)
Definition outbound_any (y : yaml) : option bool :=
  if ytrue y then
    bind (check_fields y [Field "mode" Optional (Some TyStr) (Some (among ["ALLOW_ANY"; "REGISTRY_ONLY"]))]) (fun m =>
    Some (negb (match yget m "mode" with YStr s => String.eqb s "REGISTRY_ONLY" | _ => false end)))
  else Some true.

(** ** One document *)
(** IstioSidecar, IstioSidecar.py:32-51, before create_opt_egress_props; a rule is (egress_peer_set, special_egress_peer_set). *)
Record sidecar := Sidecar {
  sc_name : string; sc_ns : string; sc_default : bool; sc_affects : bool;
  sc_selected : peerset; sc_rules : list (peerset * peerset); sc_any : bool
}.
(** The attributes of the parser, IstioSidecarYamlParser.py:16-25. *)
Record state := State {
  st_peers : peerset;              (* peers_referenced_by_labels *)
  st_specific : list sidecar;
  st_default : list sidecar;
  st_global : list sidecar;
  st_nss : list string             (* referenced_namespaces *)
}.
Definition state0 : state := State [] [] [] [] [].
(** _check_and_save_sidecar_if_top_priority, IstioSidecarYamlParser.py:155-184: the new (peers_referenced_by_labels,
    referenced_namespaces).  syntax_error raises a SyntaxError (GenericYamlParser.py:44-53): lines 174 and 183 are not reached. *)
Definition check_priority (st : state) (ns : string) (default : bool) (sel : peerset) : option (peerset * list string) :=
  if default then if smem ns (st_nss st) then None else Some (st_peers st, st_nss st ++ [ns])
  else bind (ps_inter sel (st_peers st)) (fun prior => if pbool prior then None else Some (ps_union (st_peers st) sel, st_nss st)).
(** parse_policy, IstioSidecarYamlParser.py:203-250.  Simplification: a namespace that is null is rejected. *)
Definition sidecar_policy (st : state) (y : yaml) : option state :=
  bind (parse_generic y ["Sidecar"] ["networking.istio.io/v1alpha3"; "networking.istio.io/v1beta1"] ["istio"] false false true) (fun o =>
  match o with
  | None => Some st
  | Some (m, name, YStr text) =>
    let ns := ns_name text in
    bind (check_fields (yget m "spec") [Field "workloadSelector" Optional (Some TyDict) None; Field "ingress" Ignored (Some TyList) None;
                                        Field "egress" Optional (Some TyList) None; Field "outboundTrafficPolicy" Optional (Some TyDict) None]) (fun sp =>
    let default := is_null (yget sp "workloadSelector") in
    let root := String.eqb ns root_namespace in
    if root && negb default then None
    else
      bind (policy_peers cl ns "labels" (yget sp "workloadSelector")) (fun sel =>
      bind (check_priority st ns default sel) (fun pn =>
      bind (mapM (egress_rule ns) (ylist (yget sp "egress"))) (fun rules =>
      bind (outbound_any (yget sp "outboundTrafficPolicy")) (fun any =>
      let sc := Sidecar name ns default (negb (is_null (yget sp "egress"))) sel rules any in
      Some (if default then
              if root then State (fst pn) (st_specific st) (st_default st) (st_global st ++ [sc]) (snd pn)
              else State (fst pn) (st_specific st) (st_default st ++ [sc]) (st_global st) (snd pn)
            else State (fst pn) (st_specific st ++ [sc]) (st_default st) (st_global st) (snd pn)))))))
  | Some _ => None
  end).
(** All documents, with one parser (PoliciesFinder.py:101-113). *)
Definition sidecar_docs (docs : list yaml) : option state :=
  fold_left (fun acc y => bind acc (fun st => sidecar_policy st y)) docs (Some state0).

(** ** The connections *)
Section Conns.
Context {C : Type} (A : cops C) (mk : cdict -> C).
Definition pair_conns (s d : peerset) (protocols : option iset) : C := mk (CDict (Some s) (Some d) protocols None None None None None None None).
(** combine_peer_sets_by_ns, IstioSidecar.py:115-128.  A set has no order: which peer [list(s)[0]] is is not specified, here it is the
    first of the list.  The loop removes at least that peer; [fuel] is the number of peers. *)
Fixpoint by_namespace (fuel : nat) (from to : peerset) : option (list (peerset * peerset)) :=
  match from with
  | [] => Some []
  | p :: t =>
    match fuel with
    | O => None
    | S fuel =>
      if is_block p then by_namespace fuel t to
      else let pods := namespace_pods cl (cl_ns cl p) in
           bind (ps_inter from pods) (fun f => bind (ps_inter to pods) (fun d =>
           bind (ps_diff from pods) (fun rest => bind (by_namespace fuel rest to) (fun r => Some ((f, d) :: r)))))
    end
  end.
(** create_opt_egress_props for one rule, IstioSidecar.py:130-161. *)
Definition rule_props (sel : peerset) (any : bool) (r : peerset * peerset) : option C :=
  let p0 := c_empty A in
  let p1 := if any then c_or A p0 (pair_conns sel all_ips_set None) else p0 in
  bind (ps_inter dns_entries (ps_union (fst r) (snd r))) (fun dns =>
  let p2 := if pbool sel && pbool dns then c_or A p1 (pair_conns sel dns (Some [Ivl 6 6]%Z)) else p1 in
  let p3 := if pbool sel && pbool (fst r) then c_or A p2 (pair_conns sel (fst r) None) else p2 in
  bind (by_namespace (List.length sel) sel (snd r)) (fun pairs =>
  Some (fold_left (fun p fd => if pbool (fst fd) && pbool (snd fd) then c_or A p (pair_conns (fst fd) (snd fd) None) else p) pairs p3))).
(** The policy object of a sidecar with the selected peers [sel]. *)
Definition sidecar_object (sc : sidecar) (sel : peerset) : option (policy (C:=C)) :=
  bind (mapM (rule_props sel (sc_any sc)) (sc_rules sc)) (fun ps =>
  Some (Policy (sc_name sc) (sc_ns sc) TSidecar false (sc_affects sc) sel [] (map (Rule Allow [] []) ps) None Allow)).
(** One turn of the loops of get_istio_sidecars, IstioSidecarYamlParser.py:273-287: (result, referenced_peers). *)
Definition refine_step (acc : option (list (policy (C:=C)) * peerset)) (sc : sidecar) : option (list (policy (C:=C)) * peerset) :=
  bind acc (fun st =>
  bind (ps_inter (sc_selected sc) (snd st)) (fun prior =>
  bind (if pbool prior then ps_diff (sc_selected sc) (snd st) else Some (sc_selected sc)) (fun sel =>
  bind (sidecar_object sc sel) (fun p => Some (fst st ++ [p], ps_union (snd st) sel))))).
(** get_istio_sidecars, IstioSidecarYamlParser.py:252-289. *)
Definition get_sidecars (st : state) : option (list (policy (C:=C))) :=
  bind (mapM (fun sc => sidecar_object sc (sc_selected sc)) (st_specific st)) (fun res =>
  bind (fold_left refine_step (st_global st) (fold_left refine_step (st_default st) (Some (res, st_peers st)))) (fun r => Some (fst r))).
Definition sidecars_of (docs : list yaml) : option (list (policy (C:=C))) := bind (sidecar_docs docs) get_sidecars.
End Conns.
End Sidecars.
